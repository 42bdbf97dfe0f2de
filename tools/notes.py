NOTES = {
"C01": ("proved", ""),
"C02": ("proved", ""),
"C03": ("proved", ""),
"C04": ("proved", ""),
"C05": ("proved", ""),
"C56": ("partial", "false of the code: a tuple nested directly in a non-root tuple comes back as a list (witness in the theorem)"),
"C57": ("partial", "false of the code: writing a path after a longer one through it fails while the other order succeeds (witness in the theorem)"),
"C09": ("proved", "for graphs with no edge into the input, which the public API guarantees; without it the bare function is wrong (C09_edge_into_start_refuted)"),
"C10": ("partial", "false of the code as stated: an acyclic network with a module that is not reachable from the input feeding a live module is rejected (C10_acyclic_accepted_refuted); the exact acceptance condition is proved (C10_accepted_iff)"),
"C06": ("proved", "uuid4 is modelled as a fresh source: injective, never a component the user wrote"),
"C07": ("proved", "for connections written with clean paths (no leading/trailing/doubled separator) to existing modules, and no module name beginning with the letters of the output key; outside this class the internal failure does occur (C07_trailing_separator_refuted, C07_container_target_refuted)"),
"C08": ("partial", "multiset of connections is kept (C08_connections_kept); the order of a source's targets is not (C08_order_preserved_refuted), and with trailing separators a connection can be lost"),
"C11": ("partial", "false of the code as stated: names beginning with 'input'/'output' change acceptance and output structure (C11_inputs_name_refuted, C11_output_layer_name_refuted). Proved for every injective renaming of the names at the top level that leaves the empty name, numbers and names beginning with 'input'/'output' alone: the call gives the same output or the same failure and the renamed state (C11_renaming_partial), the same order (C11_execution_order_partial) and the same shapes (C11_shapes_partial). Missing: renaming of modules nested inside containers."),
"C12": ("proved", "for networks written as in good_network (clean paths to existing modules, canonical indices, no name beginning with the letters of a reserved key); evaluation is shown equal to the unique solution of the order-free dataflow equations; when such a network compiles and runs is C66. A network mixing numeric and other keys in one dictionary may be impossible to call (C12_mixed_keys_refuted)"),
"C13": ("proved", "same class of networks as C12"),
"C14": ("proved", "same class of networks as C12"),
"C15": ("partial", "false of the code: the bare callable of a graph model assigns into the caller's state object (C15_state_argument_modified_refuted)"),
"C16": ("proved", "graph models: C16_graph_shapes (networks as in C12); sequential models: C16_sequential_shapes"),
"C17": ("proved", "module dictionaries have string keys; jax.random.split is only assumed to return as many keys as asked for"),
"C18": ("partial", "false of the code: dictionary keys are applied in sorted order (C18_insertion_order_refuted); true when inserted in sorted order"),
"C20": ("partial", "sequential models proved, assuming jax.random.split returns different keys; false for graph models, where every module gets the same key (C20_graph_keys_refuted)"),
"C21": ("partial", "proved for all batch sizes without recompilation avoidance, and with it when every array has at least two axes; false otherwise (C21_one_axis_refuted: x[j][None, :] on a row that is a scalar)"),
"C22": ("proved", "with recompilation avoidance for arrays of at least two axes (see C21_one_axis_refuted); scan's stacking and reshaping is modelled as concatenation"),
"C23": ("partial", "proved for 1 <= size <= number of rows; a larger size is a TypeError, not one short remainder (C23_oversized_batch_refuted)"),
"C24": ("proved", "jax.random.permutation is modelled as a permutation that depends on the key and the axis length only"),
"C25": ("proved", "jax.random.permutation is modelled as a permutation; batch size between 1 and the number of samples (train() clamps it)"),
"C26": ("proved", "losses live in any type with a NaN-aware order (fl_order); the initial model and the first epoch share the same best_epoch number in the code"),
"C27": ("partial", "proved exactly (C27_stops_exactly) with interrupts noticed in verbose mode only; with verbose=False an interrupt is never noticed (C27_quiet_interrupt_refuted)"),
"C28": ("partial", "proved when the user's callback keeps frozen parameters; a callback that changes them does change them (C28_callback_refuted); which arrays are flagged frozen for nested models is C95"),
"C29": ("partial", "proved over the rationals when the batch size divides the number of samples; false otherwise because batch losses are averaged unweighted (C29_refuted)"),
"C30": ("partial", "true for the real optimizer within a run (C30_real_counter); false for the complex one (C30_complex_refuted), and the returned state is one epoch behind (C30_resume_refuted)"),
"C31": ("partial", "acceptance is characterised exactly (C31_accepted_iff, with the sizes of the batches in C31_batch_sizes and the data handed on in C31_accepted), the losses that can be called too (C31_losses_called, C31_losses_only), and ValueError for senseless combinations (C31_value_error); false of the code for validation targets without validation inputs, dropped validation uncertainties, custom validation losses without validation data, missing targets and non-positive batch sizes (the _refuted theorems)"),
"C32": ("partial", "value, zero on perfect prediction, non-negativity and the meaning of every name (C32_names_mean, C32_huber_parameter) proved over exact complex numbers (non-finite values are one extra element); false of the code: names beginning with pseudo_huber are accepted, relative errors are not finite at -1e-4, pseudo_huber fails on anything but a bare array, outputs of different shapes fail"),
"C58": ("partial", "structure mismatches are rejected (C58_structure_partial); shape mismatches are broadcast (C58_refuted)"),
  "C33": ("partial", "insert/prepend/append/pop/replace proved to be the sequence operation for lists, tuples and dictionaries; every operation, failing or not, leaves the model not compiled, other containers alone and (failing) the modules unchanged; histories. Refuted: tuple pop with index -1 duplicates the others (for every tuple), tuple item replacement always raises TypeError, insert under an existing key drops or replaces, append after an empty nested container is not at the end, appended dictionary entries need not run last. Keys that are paths into nested containers are C114."),
  "C34": ("partial", "Proved for tuple and dictionary containers: the sum is a new model holding a's entries then b, and every existing container is unchanged. Refuted (for every list of modules): the list of the left operand is extended in place and shared while it stays compiled. Refuted: sum over a dictionary can run the second operand first."),
  'C35': ('partial', 'State machine of edits, compile, set_hyperparameters, in-place module changes, training, calls and both gradients, with the caches, jit traces and autobatch wrappers. Proved for all histories: current parameters and state, which are those last handed over by compiling, training, loading or setting them (C35_up_to_date), right quantity; current modules for histories that change modules (other than by editing methods or deserialize) only before the first evaluation after a reset. An evaluation or training is answered exactly if there are modules, all ready, with known shapes and the input shape of the model (C35_answered). Refuted: recompiling a SequentialModel, set_hyperparameters with modules, in-place changes of a module. Missing: the nested case is covered only as an in-place change of a module.'),
  'C59': ('partial', 'Proved: a SequentialModel that was never compiled is not ready after a failed compilation, unless all that is wrong is that its output has no axes (C59_sequential_partial); a NonSequentialModel of modules that were not ready is not ready after it, provided that modules do not become ready by compilations that raise (C59_graph_partial); a ready NonSequentialModel is untouched (C59_ready_graph). Refuted: a compiled SequentialModel stays ready with modules compiled for different shapes (C59_refuted); new models of both kinds are ready after the ValueError about an output without axes (C59_no_axes_refuted); a new NonSequentialModel of ready modules is ready after a module could not be compiled (C59_ready_modules_refuted).'),
  'C60': ('partial', 'Proved for the first gradient call after a reset and for one directly after a gradient with other batching options (C60_other_options_partial). Refuted: a later call with another fwd keeps the old mode unless batching options change.'),
  'C37': ('partial', 'Proved per class: copying through serialize and deserialize gives the same attributes (and hence the same behaviour) for Eigen-type, Reshape, TreeFlatten, TreeKey, Comment, Constant, PReLU, Einsum, Bias, AffineHermitianMatrix, AffineTensor, ExpectationValueSum. Exact conditions proved (_partial) and counterexamples (_refuted) for activations with arguments that are not serialisable, ConcatenateLeaves, MatMul (separator lost), LowRank, AffineEigenvaluePMM (uncompiled Ms/Ds/b lost), LinearNN (activation lost), complex Bias.'),
  'C36': ('partial', 'Proved for every nested sequential or graph model whose modules copy (C37) and accept their own parameters back, with proofs for the built-in classes; evaluation order preserved. Refuted: uncompiled models with an affine matrix are saved but cannot be loaded; tuples of modules and ragged nested lists cannot go through a file (exact iff proved); dictionary insertion order is lost. Not modelled: user modules with own state, subclasses of the models with further attributes.'),
  'C38': ('partial', 'Proved for ready models at every nesting depth: success exactly for the documented spellings, conversion of every array, idempotence, real and complex kinds kept; same for safecast. Refuted: integer and boolean arrays become floats; a ready graph model with an unused uncompiled module raises. The conversion of array contents (astype) is an argument with two stated properties.'),
  'C39': ('partial', 'Standard, min-max and mixed scalers are proved to undo themselves and to be affine per feature on every tree of data with one number of samples (other trees are refused, C39_samples). Robust scaling is proved for leaves without scaling or with one feature and refuted otherwise: with two or more features transform raises ValueError (truth value of an array).'),
  'C40': ('proved', 'Standard scaling gives mean 0 and variance 1 on varied data; min-max scaling spans its range; constant features are lost (real arithmetic instead of floats).'),
  'C41': ('partial', 'Proved exactly for data whose rows are comparable entry by entry (always so with one feature) and whose leaves have the same number of different rows, and shown that both conditions are needed (C41_chain_needed, C41_categories); refuted in general, since fit sorts each column of the unique rows on its own, and since the annotation of transform has one num_unique for all leaves.'),
  'C42': ('partial', 'Proved: the coverage guarantee for every n and alpha >= 1/(n+1), the exact condition for it, the rank of the reported quantile, order independence and the per-feature value on trees. Refuted for alpha < 1/(n+1): the level exceeds 1 and is silently clamped, so the largest score is used. Not covered: NaN or infinite scores.'),
  'C43': ('proved', "Intervals on whole trees, nesting for non-negative scales, rejection of bad alphas and of uncalibrated models. The wrapped model's prediction and the scales are arguments."),
  'C44': ('partial', 'Refuted: calibrate keeps the cached quantiles, so a level asked for before recalibrating keeps its old quantile (for every object and everything that follows: C44_quantiles_stay). Proved: exactly which scores every query uses, for all histories, and the property for levels not asked for before.'),
  'C45': ('proved', 'Finite rows have all entries >= eps and at most the range; the infinite row is returned iff some feature varies by less than eps. Without weights.'),
  'C46': ('partial', 'Range proved for positive weights. Refuted: with equal weights the result depends on the order of the samples (sorting is by weight, not by data); partial: order independence for pairwise different positive weights. For arrays of more than one dimension, which is how the code calls it, it always raises.'),
  'C49': ('proved', 'All eight rules, every 1 <= k <= n, all spectra; ties resolved arbitrarily by the specification. np.argsort is modelled as a stable sort.'),
  'C50': ('partial', 'Proved for Eigenvectors and Eigensystem on all trees and counts, and for Eigenvalues with a count or a single array. Refuted for Eigenvalues with num_eig=None on other trees: get_output_shape indexes the whole tree of shapes (input_shape[0]), which raises KeyError on dictionaries and announces nested tuples on lists and tuples.'),
  'C47': ('proved', 'For arbitrary complex parameters, real features and real smoothing, in exact arithmetic over any closed field with conjugation; full and low-rank module; also the value, the rank bound and that complex features can break it.'),
  'C48': ('proved', 'All counts and sizes, exact arithmetic.'),
  'C61': ('proved', 'Exact arithmetic; np.linalg.norm of the centring term is an arbitrary function of the observable.'),
  'C62': ('proved', 'Exact arithmetic.'),
  'C63': ('proved', 'Exact arithmetic.'),
  'C53': ('partial', 'Proved for targets that fit at every leaf (C53_reshape, C53_flatten), that accepted targets of sizes can be met (C53_rejects), TreeFlatten and TreeKey. False in four cases: None entries announce None (C53_none_refuted), a tuple of one target is accepted for a single array (C53_tuple_refuted), negative sizes pass (C53_negative_refuted), Flatten of single numbers announces a float (C53_scalar_refuted).'),
  'C54': ('partial', 'Proved for axis None and axes counted from zero, with or without path_order (C54_shape, C54_entries). False for negative axes: axis -1 joins the samples (C54_refuted), others are shifted by one (C54_shifted_refuted).'),
  'C51': ('partial', 'Proved for every form of the notation unless the first of several data operands is a scalar; with an empty first group the code drops the operand (refuted with witness).'),
  'C64': ('proved', 'For every notation whose first data operand is not the empty string of several, with one string per data array (otherwise the numbers of strings and arrays need not agree).'),
  'C65': ('partial', 'Proved for at most one parameter array; with several parameter arrays the code takes the arrays for their shapes and raises (refuted with witness).'),
  'C52': ('partial', 'Proved for up to 25 operands over any semiring (C52_matrix_product; that such modules compile and can be called is C110), with associativity of the specified product. False in general: with dictionary keys made of digits path_order is not followed (C52_product_refuted), with 26 or more operands the result is transposed (C52_many_refuted), and chains of more than fifty matrices are rejected (C52_accepted_refuted).'),
  'C19': ('partial', 'Both directions proved for chains of any length through any module tree, for modules that ignore the random key and have parameters other than None. The direction from the sequential to the graph model assumes that the graph model compiles (module dictionaries that mix number-like and other keys do not).'),
  'C66': ('partial', 'About the wiring: the modules must accept the shapes they get, and the output must pass the check of C135 as well. Proved (if and only if) for module trees whose target keys in the same place are all numbers or all names, with plain names as in C07/C08/C11; a dictionary of modules mixing both kinds of keys does not compile (refuted with witness).'),
  'C19': ('partial', 'Both directions proved for chains of any length through any module tree (the graph model of a chain always compiles), for modules that ignore the random key and have parameters other than None (the sequential model raises for None). Assumes plain names (C07, C08, C11) and path keys in the same place all numbers or all names; without the latter the graph model need not compile though the sequential model works (C19_mixed_keys_refuted).'),
  'C55': ('partial', 'Proved for the matrices Ms and Ds and all options, after any history of compile calls (C55_supplied_partial). False for the bias b of AffineObservablePMM: it is never passed on (C55_supplied_bias_refuted) and makes no difference in any history (C55_bias_ignored_always).'),
  'C67': ('partial', 'False of the code: a composite module rebuilds its list of modules after every reset, so appended modules are lost together with trained parameters (always, not only for the witness), and the sum with + hands the modules over as matrix_size and never compiles. Proved: compiling again for the same single-array shape changes nothing.'),
  'C68': ('partial', 'Proved when num_eig / output_size are given; with num_eig=None the eigenvalue module announces None, and without output_size the observable module announces nothing although Ds determines it.'),
  'C56': ('partial', 'false when a tuple sits directly in another non-root tuple: the call fails although there is room (C56_extend_nested_tuple_refuted); whenever the call succeeds every container keeps its kind (C56_kinds_kept_partial)'),
  'C57': ('partial', 'false in general: an index-like key seen first fixes the container to a list (C57_extend_order_independent_refuted); for paths none of which begins another, with standard indices and uniform keys, every order succeeds with == results (C57_order_independent_partial)'),
  'C69': ('partial', 'Refuted: GLU halves the last axis but announces the input shape (C69_shape_refuted), and softmax-like functions on one number per sample run over the batch axis, so samples influence each other (C69_samples_mixed_refuted). Proved for the entry-by-entry functions (C69_entrywise) and, when every sample has at least one axis, for functions along the last axis (C69_rowwise, C69_rowwise_samples). Reductions over everything (AMax, AMin, LogSumExp without arguments) are always rejected by the run-time type check (C69_reductions_rejected). The values of GLU are described by C69_glu_value. OneHot, frexp, packbits and unpackbits are not modelled.'),
  'C70': ('partial', 'Refuted: set_params of a compiled module accepts arrays of other shapes, after which the announced shape is wrong (C70_shapes_refuted) or samples get different biases (C70_samples_refuted). Proved whenever the parameters keep their shapes (C70_bias_adds), for every way of constructing the module. Given numbers must be of the announced kind, real or complex (C70_kind); a scalar module never holds more than one number (C70_scalar).'),
  'C71': ('partial', 'Refuted: set_params accepts any tree while the announced shape stays (C71_shapes_refuted). Proved for the constant the module has after compile (C71_constant_repeats).'),
  'C72': ('proved', 'For every history of compile and set_params calls, failing ones included. set_hyperparameters is not part of the histories (it refuses to run once there are parameters).'),
  'C73': ('partial', 'Refuted for PReLU, whose compile draws new slopes unless an input shape is already known (C73_prelu_refuted); proved for Bias and Constant (C73_bias_kept, C73_constant_kept).'),
  'C74': ('partial', 'Refuted for stratified corrections of outputs whose samples are not of shape (1,): calibration raises ValueError when stacking the medians with [[0.0]] (C74_two_outputs_refuted). Proved for stratified corrections of outputs of shape (1,) (C74_strata_centred_partial) and for global corrections of outputs of any shape (C74_global_centred). Real numbers, no NaN; the uncertainty estimate is not involved.'),
  'C75': ('partial', 'Proved when all output leaves have one shape, when outputs have rank 1 if distances are used, and when no input uncertainties are given (C75_formula_partial); the normalisations are as required (C75_normalisations). Refuted otherwise: output leaves of different shapes raise TypeError in tree_util.scalar_mul (C75_output_shapes_refuted); the column of distances is added to outputs that are single numbers (giving samples x samples numbers) or matrices (giving a sample the distance of another one) (C75_distance_refuted).'),
  'C76': ('partial', 'Refuted: the input uncertainties keep their axis of samples while the gradients are mapped sample by sample, so the result has a wrong shape (C76_shape_refuted) or depends on the input uncertainties of other samples (C76_samples_refuted).'),
  'C77': ('partial', 'Refuted: 1.0 / 0 raises ZeroDivisionError (C77_division_by_zero_refuted); without any selected continuous input the term never succeeds (C77_nothing_selected).'),
  'C78': ('partial', 'The three characterisations are proved for all axes (slices without step). An answer is proved when the axes exist, except that uniform_leaf_shapes_equal raises IndexError for trees without leaves (C78_empty_refuted); a single leaf counts as uniform along an axis it does not have (C78_missing_axis_refuted).'),
  'C79': ('partial', "C79_gower_partial is Gower's distance when no category is new and selected categorical leaves have one number per sample; C79_any_category drops the first condition, a new category then counts one half. C79_refuted: with a new category the distance is not Gower's. The k-d tree is modelled as exact queries."),
  'C80': ('partial', 'C80_bounds; the last part is false: C80_training_samples_refuted gives a training sample with a positive distance, larger than that of a sample between training samples.'),
  'C81': ('partial', 'All three parts are false: C81_constant_feature_refuted (division by a zero range, ValueError from the k-d tree), C81_new_category_refuted (counts one half), C81_wide_category_refuted (shapes cannot be divided). C79_any_category states what new categories count in general.'),
  'C82': ('partial', 'Proved for successive updates of complex_adam with real parameters (C82_complex_adam_partial: all batches of the first epoch) and for adam trained with one batch per epoch (C82_adam_one_batch). False otherwise: adam keeps its counter within an epoch, so with several batches the bias corrections are those of the first update (C82_batches_refuted: a step of more than 1.3 times the learning rate for constant gradients); complex_adam is advanced by its updates and once more per epoch (C82_epochs_refuted).'),
  'C83': ('proved', 'For both optimizers and for real and complex parameters, whatever the counter, so also where C82 fails. Real arithmetic.'),
  'C84': ('partial', 'Proved except for the last sentence, which is false: real and imaginary parts are clipped separately (C84_direction_refuted).'),
  'C85': ('partial', 'Proved; the phase statement without clipping (C85_phase), with clipping it is false (C85_phase_clipped_refuted).'),
  'C86': ('partial', 'C86_input_rows (rows are derivatives of the single samples), C86_input_batching (states without arrays) and C86_params_batching (any samplewise model) hold; false for grad_input on models with arrays in their state (C86_input_state_refuted): vmap adds an axis to the state, so the second batch meets a state of the wrong shape. jacfwd/jacrev are parameters of the model (specified by of_values, derives, by_rows).'),
  'C87': ('partial', 'Holds for grad_params (C87_params, C87_params_batches). False for grad_input (C87_input_state_refuted; C87_input_axis and C87_input_never: always, for every array in the state): arrays come back with an additional leading axis of the number of samples.'),
  'C88': ('proved', 'C88_affine (initial parameters), C88_parameters (set parameters; recompiling), C88_activation_found (loading recovers the activation), C88_one_array; C88_scalar_rejected shows the limit: samples without an axis are refused because Flatten announces a float. Real parameters; trees without None or empty tuples.'),
  'C89': ('partial', 'Holds for activations that keep the shape (C89_announced). False for GLU (C89_glu_refuted) and after changing out_features (C89_resized_refuted): compile reuses the old modules if the input shape is the same.'),
  'C90': ('proved', 'C90_memory, for every scaler whose attributes can arise from fitting (proper); what a scaler does to one leaf is an arbitrary function that does not distinguish a number from an array without axes. Scalers that were never fitted are covered as well (C90_unfitted).'),
  'C91': ('partial', 'C91_file for scalers whose outermost structure is a dictionary or one array (nested structure arbitrary). False otherwise: C91_list_never and C91_file_refuted (list or tuple of arrays: loaded as one stacked array), C91_ragged_refuted (cannot be saved), C91_mixed_list_never and C91_mixed_refuted (list of scalers cannot be loaded), C91_tuple_refuted (tuple of scalers becomes a list), C91_bounds_never and C91_bounds_refuted (feature ranges given as arrays cannot be loaded). File format itself (npz, pickle) is trusted to return what was stored; dtypes are not modelled.'),
  'C92': ('partial', 'Proved in memory for all histories of successful calibrations and calls and all sequences of later calls (C92_memory), and through a file for all calls but the name (C92_file). False of the code through a file for the name, which becomes an array (C92_name_refuted), and after a failed calibration, when the model may still predict but its copy cannot be loaded (C92_failed_calibration_refuted). The numerical components are arguments (hypothesis fair).'),
  'C93': ('partial', 'Proved for refusals because of shapes (C93_shapes) and of the structure of continuous (C93_mask). False of the code for later refusals: flags of the wrong structure make the model unusable (C93_refuted, in general C93_flags_break), training data without variation change its predictions (C93_changes_refuted).'),
  'C94': ('partial', 'Proved for scores, uncertainties and distances, and for predictions if no quantiles were asked for before (C94_fresh; the stale quantiles are C44), and for success itself (C94_success). The method input_sensitivity alone still answers with data of a previous calibration (C94_input_refuted).'),
  'C95': ('partial', 'Proved if no nested model mixes frozen and trainable modules (C95_frozen_modules_kept_partial; true for flat models and for nested models frozen as a whole, C95_modules_unmixed, C95_freeze_unmixed). False of the code otherwise: a frozen module beside a trainable one in a nested model is trained (C95_refuted), because a model counts as trainable if any of its modules is (C95_trainable_means_any) and this one flag is used for all its parameters (C95_flags). The training itself is an argument that leaves arrays flagged False unchanged (C28). That training respects the flags is a hypothesis here; C117 has the loop itself.'),
  'C96': ('partial', 'C96_set_then_get_partial, C96_get_then_set, and refusal of trees that do not fit at the outermost level without any change (C96_misfits_refused). False of the code for refusals by a later module or inside a nested model: earlier modules keep the new values (C96_refuted). Missing in the positive part: nothing is said of modules that report something else than was set.'),
  'C97': ('proved', 'C97_count_of_modules, C97_flat (undoing all nesting), C97_count_none_iff, C97_count_is_number_of_reals. Modules that define their own count are covered by the first three only.'),
  'C98': ('partial', 'Acceptance of all data that fit (C98_accepts), the exact condition of acceptance and ValueError otherwise for trees without empty tuples (C98_exact_partial, C98_rejects). False of the code: arrays with different numbers of samples are accepted, as are a number without an axis of samples and an empty tuple when single numbers are expected (C98_refuted).'),
  'C99': ('partial', 'Proved for trees of jax arrays (C99_equal_arrays_partial) and trees of other values (C99_equal_values), and for all_close if the shapes agree (C99_close_arrays_partial; C99_close_structure); C99_any states the reduction over the leaves. False otherwise: arrays of different shapes can be close or raise, values that are not arrays must be exactly equal, numpy arrays raise ValueError (C99_refuted). Exact numbers, no NaN.'),
  'C100': ('partial', 'Proved without restriction for AffineHermitianMatrix and AffineTensor (C100_hermitian_matrix, C100_tensor), and for the other three if set_params gets factors that count the same matrices (C100_low_rank_partial) or, after compile, observables of the same size (C100_sums_partial). False of the code otherwise: a low rank module accepts five weights and three vectors and compiles (C100_low_rank_refuted), a compiled sum accepts observables of any matrix size (C100_sum_refuted); both fail when called.'),
  'C101': ('proved', 'C101_hermitian and C101_observables_hermitian (drawn matrices are Hermitian by the symmetrisation in compile, an assumption on the draw here), C101_recompiled and C101_frozen_settings for all five classes. Arrays are opaque: Hermitian means passing np.allclose.'),
  'C102': ('partial', 'Proved for trainings that are not resumed (C102_fresh, C102_fresh_forgets), for resumed ones if no parameters were set since the last training (C102_resumed_partial), for the optimiser state that a fresh training starts with (C102_fresh_optimiser), and for the refusal without an earlier training (C102_nothing_to_resume); C102_no_epochs is the visible consequence. False of the code otherwise: set_params leaves the optimiser state alone, and resuming brings its parameters back (C102_refuted). Modules are taken to accept the trained parameters (see C96).'),
  'C103': ('partial', 'Proved: disjoint models never influence each other (C103_other_models), models without repeated modules behave as in the model without references, so C95 and C96 apply (C103_unshared), flags (C103_freeze), set then get if a repeated module gets the same parameters in all its places (C103_set_then_get_partial), and that a module always ends up with one of the parts meant for it (C103_some_part). False for a module object that occurs twice: set_params and train silently keep one part only, get_params returns something else (C103_refuted).'),
  'C104': ('partial', 'Proved for all models: structure, contents and independence of the copy (C104_copy, C104_independent). Same behaviour for models in which no module occurs twice (C104_behaves_partial, for set_params followed by get_params). False otherwise: the copy has two separate modules where the original has one (C104_refuted).'),
  'C105': ('partial', 'Proved as long as models are constructed or loaded from files (C105_own_history_partial, C105_separate, C105_reloaded). False for models restored in memory by deserialize(serialize()): the dictionary of quantiles is shared, and the original answers with quantiles of the scores of the copy (C105_refuted, C105_always_refuted).'),
  'C106': ('partial', 'Proved for models in which no module object occurs twice, in both directions, with the check of the output shape of every model (C106_compiled_partial, C106_compiles). False otherwise: a module that occurs twice is compiled twice and keeps only what the second time stored (C106_refuted; e.g. the shape kept by Flatten).'),
  'C107': ('partial', 'Proved for all sequences of calls in which a bar is started or reset only on a blank line (C107_update_partial, C107_end_partial, C107_nothing). False otherwise: start forgets the length of the line, so train, which starts a bar for every epoch in the same line, leaves remnants (C107_refuted), and so does a new bar after a longer line (C107_reset_refuted).'),
  'C108': ('partial', 'Proved: the bar never goes back (C108_never_back), the number of filled places (part of C107_update_partial) and the seconds once there is some progress (C108_seconds_partial). False before: while the progress is 0 the seconds shown are negative (C108_refuted).'),
  'C109': ('partial', 'Uncertainties, predictions and intervals after a calibration are characterised (iff) by a specification over the arguments of that calibration alone, which does not mention the object; the one-hot encoding of the distances is exactly that of the categorical selected features. Refuted: with the parameter term switched off for a model whose parameters are a container, parameter_sensitivity raises an exception or answers with the size of an earlier calibration. Intervals: only if no quantile was asked for before (the stale quantiles are C44). Missing: the numerical functions are parameters.'),
  'C110': ('partial', 'Proved for all five notations with one string per array and, where the output is written, distinct letters that occur in the operands (C110_einsum_runs), for MatMul incl. output_shape with at most 25 operands (C110_matmul_runs), compiling again with at most one array of parameters (C110_compile_again). False: an output letter that occurs nowhere else or twice is accepted by compile and fails when called (C110_output_refuted, C110_repeated_refuted); a failed compile leaves the module ready (C110_ready_refuted) and bound to the wrong shapes (C110_retry_refuted); compiling again fails if several parameter arrays were drawn (C110_again_refuted).'),
  'C111': ('partial', 'Proved in both directions for bare arrays and all histories of compile calls (C111_accepted_iff). False for a single array inside a dictionary: with all eigenvalues (num_eig None) compile of AffineEigenvaluePMM raises KeyError (C111_tree_refuted). The size is never taken from the matrices by AffineEigenvaluePMM (C111_size_needed).'),
  'C112': ('partial', 'Proved for modules with parameters of the dtypes that compile draws (C112_compiled, C112_count_partial) and for models made of such modules (C112_model); the number is well defined (C112_unique). False if matrices of a real dtype are supplied: a real symmetric matrix of size two has three degrees of freedom, four are reported (C112_real_refuted). Exact arithmetic; the test for Hermitian matrices is equality instead of np.allclose.'),
  'C113': ('partial', 'Refuted as documented: C113_bias_refuted and C113_terms_refuted give three samples of which one instead of two is covered, C113_refuted negates the general statement. C113_one_term_partial is the guarantee for one term without bias correction and without weights (also that every sample gets an interval), C113_interval the exact interval with one term, without correction or with a global or stratified one. What holds with any number of terms and any correction is the coverage of the calibration samples themselves (C113_calibration_data). Missing: the exact class of calibrations for which the guarantee holds; uncertain labels; more than one output.'),
  'C114': ('partial', 'Proved: reading (C114_read), what an accepted assignment changes and that nothing else does (C114_write, C114_elsewhere), refused assignments (C114_refused), the exact condition of acceptance (C114_accepted_iff), that the outermost model and a model directly above the place are reset (C114_outermost, C114_parent). False of the code: every other model on the path stays compiled (C114_reset_refuted, always: C114_kept), and paths as reported by jax never lead anywhere (C114_jax_paths_never) while assigning with one adds an entry (C114_jax_paths_added). Slices and objects that occur twice are left out.'),
  'C115': ('partial', 'Proved for models that use is_ready of the base class (C115_ready_iff, C115_reason, C115_unknown_iff). Graph models override is_ready but not the reasons: without an execution order the reason can be unknown (C115_graph_refuted); with one it never is (C115_graph_partial), though it may name modules that are not needed.'),
  'C116': ('partial', 'Proved: the contents (C116_content, C116_model, C116_graph) for keys without line breaks and indentation by spaces; the limit for max_leaf_chars >= 3 (C116_limit_partial); alignment of the outermost container (C116_outermost); matching parentheses of modules that are not frozen (C116_balanced_partial). False of the code: limits below 3 make lines longer than the limit (C116_limit_refuted, always: C116_small_limit_never), closing brackets of nested containers stand too far to the right (C116_aligned_refuted, always: C116_nested_never), and the text of a frozen module has a parenthesis too many (C116_balanced_refuted, always: C116_frozen_never).'),
  'C117': ('partial', 'Proved: saving and loading gives the same model with optimiser states (C117_reload) and is invisible for everything that follows (C117_transparent); after a training the optimiser states are those of the parameters set (C117_trained_in_order); frozen modules keep their parameters through whole histories (C117_frozen_partial). Missing in the latter: nested models that mix frozen and trainable modules (C95) and parameters set by hand, for which it is false of the code (C117_refuted). Assumed of single modules: a file gives them back and they accept their own parameters.'),
  'C118': ('partial', 'Proved: C118_checked, C118_accepted, C118_abstract; run-time type checks for methods of classes that are not abstract (C118_typed_partial). False of the code: methods inherited from abstract classes are not type checked (C118_refuted); constructors whose first parameter is not called self (C118_names_refuted).'),
  'C119': ('partial', 'Proved for strings (models and scalers) and for all names ending in .npz (C119_found_partial, C119_separate), and that one file is written (C119_one_file). False of the code for all other names (C119_refuted, in general C119_lost). File objects are not modelled.'),
  'C120': ('partial', 'Proved except for the last sentence (C120_strict, C120_upgraded, C120_not_upgraded, C120_upgrade_fails), which is false of the code (C120_refuted). For a conformal model only its own package version is looked at (C120_conformal); that is enough if all noted versions are the same, as in files written by serialize (C120_conformal_partial), and not otherwise (C120_conformal_refuted).'),
  'C121': ('partial', 'Proved for everything but training resumed with older optimiser states (C121_set, C121_lasts, C121_lasts_partial), for which it is false (C121_refuted, always: C121_comes_back). Optimiser and callback are assumed to keep the precision of arrays.'),
  'C122': ('partial', 'Training proved (C122_train). Direction proved for vectors (C122_direction_partial), existence for real numbers (C122_real_partial) and for a first gradient with a direction (C122_asked). False of the code otherwise (C122_direction_refuted, C122_refuted, in general C122_stuck).'),
  'C123': ('partial', 'Proved for all classes and nestings: independence (C123_independent, C123_own_key, C123_different for the keys themselves), and that parameters of a module of a sequential model do not depend on later modules (C123_later) or on what other modules were given (C123_others). The sizes of real and imaginary parts agree (C123_size_partial) except for a complex AffineTensor, where their mean squares are 3/2 and 1/2 (C123_size_refuted). Keys are paths of splits; a module object used twice is not considered.'),
  'C124': ('partial', 'Proved for the training steps and the returned key (C124_steps) and for the modules inside sequential models (C124_modules; graph models give all modules the same key, C20). False for validation: it uses the key from which the next training keys are split (C124_validation), so that in [a, [b, c]] the module b gets in the first validation the key of a in the first training step (C124_validation_refuted).'),
  'C125': ('partial', 'Proved: the first signal ends a verbose training after its epoch (C125_first), an undisturbed one is complete whatever happened before (C125_undisturbed), signals keep their meaning exactly as long as no verbose training was started in the main thread (C125_default_iff). False: a second signal during the loop (C125_second_refuted, C125_second_never; it works during tracing, C125_second_tracing_partial), signals after a verbose training (C125_after_refuted, C125_after_never, C125_later_quiet_never), verbose trainings outside the main thread (C125_thread_refuted). Assumed: that a handler called during the loop is called before the next loop condition.'),
  'C126': ('partial', 'Proved for functions that treat every sample on its own and whose output shapes depend on the input shapes (C126_shapes_partial, C126_compile, C126_error; closed under composition: C126_after). False in general: squeeze (C126_squeeze_refuted), sums over the samples (C126_mixing_refuted). Not modelled: types of numbers.'),
  'C127': ('partial', 'Proved for models in which graph models contain no ready models, unless ready as they should be (C127_compile_partial), in particular for models of sequential models only (C127_sequential) and for models compiled any number of times from scratch (C127_again); get_output_shape of models that are not compiled (C127_asked_partial). False: a compiled sequential model inside a graph model (C127_refuted, C127_announced_refuted); get_output_shape of a compiled model for another shape (C127_asked_refuted). Graph models are chains here (their wiring: C12, C16).'),
  'C128': ('partial', "C128_partial: for every set that the callback enforces, every loss, data and settings: what is returned are the initial parameters or those at the end of an epoch that started within the set (and whose callback answer, which the next epoch starts with, is in the set), and the reported validation loss is the loss of exactly the returned parameters. C128_last: two callbacks that agree on all epochs but the last allowed one give the same result; with one epoch the callback has no effect. C128_refuted: the returned parameters need not be in the set. C128_steps_refuted: neither are the parameters that training steps get ('called after each training step' in the documentation)."),
  'C129': ('proved', 'C129_in_place, both directions, for nestings of any depth; the modules of each model are a list (other containers do not matter, C17_nesting_irrelevant) and the innermost modules are arbitrary, e.g. graph models. C129_keys: with arbitrary modules the same but for the keys. C129_random_refuted shows that the restriction to modules without randomness is needed. Assumes that jax.random.split returns as many keys as asked for.'),
  'C130': ('partial', "C130_shuffles: in all runs, the i-th epoch shuffles with two keys given explicitly (spec: train_key, val_key), and these are independent over all epochs, for callbacks that leave the key alone. C130_apart_partial: independent of the keys of the training steps if batch_rng and the key of the model are unrelated. C130_same_seed_refuted: not if both are the same; C130_same_seed: then every second training step of the run uses a key of a shuffle. Keys are paths of splits; that jax's keys at different paths differ is assumed as in C123."),
  'C131': ('partial', 'Proved for modules in a dictionary (all edits; C131_unmentioned_partial, C131_taken_away) and for modules appended to a list whose entries hold modules (C131_appended_partial); refuted for modules inserted into or taken from a list (C131_inserted_refuted, C131_popped_refuted).'),
  'C132': ('partial', 'Proved if every scaler object is used in one place (C132_own_data_partial) and for fits of scalers with no object in common (C132_others); a scaler that is not fitted is an error (C132_unfitted); refuted for an object that is used twice (C132_shared_refuted, C132_common_refuted), where C132_shared_never says what happens.'),
  'C133': ('partial', 'Exactly which accepted names work (C133_works_iff): those that are not empty, have no separator and do not begin with "output" (C133_name). Refuted for the other accepted names: one with the separator never runs (C133_separator), one that begins with "output", like "output_layer", gives a dictionary of the input and output of the module (C133_output_names, C133_output_layer_refuted), the empty one does not compile (C133_empty); all for every such name. The constructor refuses the reserved names (C133_reserved), append_module does not (C133_added_refuted). Models with one module.'),
  'C134': ('partial', 'The check is characterised for at most MAX_N samples with at most MAX_K entries along the first axis (C134_warns_iff_partial), and for data without equal samples for any number above ten (C134_all_different). Refuted: at most ten samples always warn (C134_few, C134_few_refuted), samples that differ only behind the first MAX_K entries count as equal (C134_wide, C134_wide_refuted), leaves with one number per sample fail (C134_scalars, C134_scalars_refuted). Missing: more than MAX_N samples with repetitions, where the answer depends on the random choice.'),
  'C135': ('partial', 'Proved for outputs that are one array, and that containers are not empty (C135_sequential_partial, C135_graph_partial; the check rejects nothing else, C135_accepted). False for arrays in containers: len() of a container counts its entries, so {"a": ()} passes, e.g. in every graph model that writes to output.a (C135_refuted).'),
  'C136': ('partial', 'False of the code: copy() shares the connections dictionary (C136_refuted, C136_copies_share) and so do models built from one dictionary (C136_constructor_refuted). Proved for programs without copies that hand each dictionary over once (C136_partial), and for all operations but edits in place in every program (C136_other_operations). Lists inside the dictionary are treated as values; models are taken to be ready when copied or saved.'),
  'C137': ('partial', 'False of the code for graph models with an unconnected module that is not ready (C137_put_back_refuted, C137_none_refuted) and for module objects used in two places (C137_threading_refuted). Proved otherwise: C137_put_back_partial, C137_threading_partial, and C137_without_update for every model. The structure of the containers of modules is left out (states are lists in the order of the leaves); batching of a call is C22.'),
  'C138': ('partial', 'Proved for alpha >= 2/(n+1) without exactly predicted samples of uncertainty zero (C138_partial), and for positive uncertainties (C138_positive). False otherwise: C138_exact_sample and C138_refuted (0/0), C138_small_alpha and C138_small_alpha_refuted (infinite scores). One output number; the rules of np.quantile for infinities and NaN are those of jax.numpy as known to the author (a NaN makes the quantile NaN; otherwise both neighbours times their weights), not checked by running.'),
  'C139': ('partial', 'Proved for settings in which nothing is left to chance, if the optimiser does not read its counter, the losses do not use the number of the epoch and the first part ends with its best epoch (C139_partial; at least two epochs in the first part, because best_epoch = 0 also stands for the initial model). C139_stuck: resuming that brought nothing once never does. False of the code otherwise (C139_refuted, one witness for each): the optimiser state returned is that before its counter was advanced, so the first resumed epoch repeats a counter (adam and complex_adam read it for bias correction and schedule); a loss given as a callable sees epochs from 0 again; and what is resumed is the best epoch, not the last, so that a training that has to get past a rise of the validation loss does so in one long run but not in short resumed ones.'),
  'C140': ('partial', "Proved: after a failed load the model has no shapes, is not ready and cannot be called, unless all modules came back and only the model's own parameters or states were refused (C140_partial); a refusal for the version or for an unknown class costs only the shapes, the compiled functions and the optimiser state (C140_early); the result of a successful load does not depend on the model before (C140_forgets) and is everything in the file, nothing missing or refused (C140_complete). False of the code: that the model is as before (C140_refuted: the modules are replaced before they are filled, and compile makes the mixture usable; the second witness, a ready model after an exception, needs data in which the model's own parameters disagree with its modules)."),
  'C141': ('partial', 'False of the code: deserialize pops entries from the dictionary it is given (C141_refuted). Proved: it changes nothing else (C141_partial), these entries do not matter (C141_unread), and loading any number of times has the same outcome (C141_again); only the first load changes anything (C141_settles).'),
}
