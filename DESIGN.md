# Formal model of pyPMM in Rocq

All sources are in `rocq/theories` (logical name `Verif`, Coq 8.16.1).  This file is
generated by `tools/make_design.py` from `tools/design_text.py`, `MANIFEST.json` and the
output of `Print Assumptions`.

## How the code is modelled

The model is shallow and follows the Python source function by function.  A Python function
becomes a total Gallina function with the same branches in the same order; a raised exception
becomes `Err e` in the type `result` (classes are kept, messages are dropped); a loop becomes a
structural recursion or a fold.  Loops without an evident bound run on fuel and return the
explicit error `OutOfFuel`, which the theorems exclude.  What the code calls but does not define
(module callables, random number generation, uuid strings, user callbacks and losses, LAPACK,
JAX kernels) is an argument of the model functions, and the theorems quantify over it.
Every definition carries a comment with the file and lines it follows and what it leaves out.

Files: `X.v` is the model, `XSpec.v` the vocabulary in which properties are stated where the
property needs any, `XProofs.v`/`XMain.v`/... the lemmas, and `Props_X.v` holds only the property
theorems, examples that meet their hypotheses, and `Print Assumptions`.

Names: `C12_...` is a theorem about property C12.  `_partial` proves it on a restricted class;
`_refuted` is an existence statement whose witness is a counterexample; `_always` (or
`_always_refuted`) is the universal version of a refutation, showing that the failure is not
confined to the witness.  A property that is false of the code in general has status "partial" in
`MANIFEST.json`, with the refutation and with what does hold.

Mutation testing: `tools/mutate.py` applies the edits in `seeded/mutants.jsonl` to a scratch copy,
replaces proofs that break by `Admitted` there and reports which property theorems are lost; the
results are in `seeded/LOG.jsonl`.

## The properties

### C01 Path write then read (proved)

*Modelled:* `tree_util.py` `getitem_by_strpath`, `setitem_by_strpath` on an inductive type of PyTrees (leaf, None, dictionary as association list in insertion order, list, tuple) with real splitting of path strings (`TreeUtil.v`).

*Proof:* induction on the components of the path; for locality, on the first component where two paths part. The specification (`TreeSpec.v`) walks the tree along lists of keys and never mentions the code's string handling.

*Theorems:* `C01_write_then_read` (in `Props_Tree.v`)

### C02 Path write is local (proved)

*Modelled:* `tree_util.py` `getitem_by_strpath`, `setitem_by_strpath` on an inductive type of PyTrees (leaf, None, dictionary as association list in insertion order, list, tuple) with real splitting of path strings (`TreeUtil.v`).

*Proof:* induction on the components of the path; for locality, on the first component where two paths part. The specification (`TreeSpec.v`) walks the tree along lists of keys and never mentions the code's string handling.

*Theorems:* `C02_write_is_local` (in `Props_Tree.v`)

### C03 Partial path lookup splits the path (proved)

*Modelled:* `getitem_by_strpath` with and without `allow_early_return`.

*Proof:* induction on the path; the remainder is described as the part of the path below the last existing container.

*Theorems:* `C03_strict_lookup`, `C03_partial_lookup_splits_path` (in `Props_Tree.v`)

### C04 Extending a structure from paths (proved)

*Modelled:* `extend_structure_from_strpaths` with fill values, choice of list or dictionary, padding, conflicts and restoring of tuples.

*Proof:* invariant over the list of paths already handled: each reads its value, old leaves read the same.

*Theorems:* `C04_extend_structure`, `C04_conflicting_fills_rejected`, `C04_existing_leaf_not_overwritten` (in `Props_Tree.v`)

### C05 Conversion to mutable containers (proved)

*Modelled:* `make_mutable` as iteration of one-level conversion.

*Proof:* nested induction on trees; result contains no tuple and has the same leaves at the same paths.

*Theorems:* `C05_make_mutable`, `C05_make_mutable_fixpoint` (in `Props_Tree.v`)

### C06 Ambiguous input slots are made distinct (proved)

*Modelled:* `concretize_paths` level by level, uuid4 as an injective source of new names.

*Proof:* invariant per level: no two paths share a prefix that ends one of them; the result is described path by path (`ConcretizeSpec.v`).

*Extent:* uuid4 is modelled as a fresh source: injective, never a component the user wrote

*Theorems:* `C06_slots_made_distinct` (in `Props_Conn.v`)

### C07 Every input slot has exactly one source (proved)

*Modelled:* `partition_connections_by_tree`, `concretize_connections`, `place_connections_in_tree` (`Connections.v`).

*Proof:* the placed dictionary is described exactly as a set of (source, slot) pairs (`SlotProofs.v`, `PlaceProofs.v`); multiset equality of connections before and after. Order and trailing separators are refuted by witnesses.

*Extent:* for connections written with clean paths (no leading/trailing/doubled separator) to existing modules, and no module name beginning with the letters of the output key; outside this class the internal failure does occur (C07_trailing_separator_refuted, C07_container_target_refuted)

*Theorems:* `C07_every_slot_one_source`, `C07_trailing_separator_refuted`, `C07_container_target_refuted` (in `Props_Conn.v`)

### C08 No connection is lost or invented (partial)

*Modelled:* `partition_connections_by_tree`, `concretize_connections`, `place_connections_in_tree` (`Connections.v`).

*Proof:* the placed dictionary is described exactly as a set of (source, slot) pairs (`SlotProofs.v`, `PlaceProofs.v`); multiset equality of connections before and after. Order and trailing separators are refuted by witnesses.

*Extent:* multiset of connections is kept (C08_connections_kept); the order of a source's targets is not (C08_order_preserved_refuted), and with trailing separators a connection can be lost

*Theorems:* `C08_connections_kept`, `C08_valid_connections_accepted`, `C08_order_preserved_refuted`, `C08_trailing_separator_loses_connection_refuted` (in `Props_Conn.v`)

### C09 Execution order is topological (proved)

*Modelled:* `resolve_connections` (two depth-first searches, in-degrees, queue loop) and `validate_resolution` (`Resolve.v`).

*Proof:* loop invariants over both work lists; the result is topological; acceptance is characterised by reachability (`ResolveSpec.v`) with a counting argument for the queue loop.

*Extent:* for graphs with no edge into the input, which the public API guarantees; without it the bare function is wrong (C09_edge_into_start_refuted)

*Theorems:* `C09_order_is_topological`, `C09_edge_into_start_refuted` (in `Props_Resolve.v`)

### C10 Every acyclic network is accepted (partial)

*Modelled:* `resolve_connections` (two depth-first searches, in-degrees, queue loop) and `validate_resolution` (`Resolve.v`).

*Proof:* loop invariants over both work lists; the result is topological; acceptance is characterised by reachability (`ResolveSpec.v`) with a counting argument for the queue loop.

*Extent:* false of the code as stated: an acyclic network with a module that is not reachable from the input feeding a live module is rejected (C10_acyclic_accepted_refuted); the exact acceptance condition is proved (C10_accepted_iff)

*Theorems:* `C10_accepted_iff`, `C10_otherwise_runtime_error`, `C10_acyclic_accepted_refuted` (in `Props_Resolve.v`)

### C11 Module names do not matter (partial)

*Modelled:* the same functions, and renaming of the names at the top level as an injective map (`RenameSpec.v`).

*Proof:* every step from the connection dictionary to the output commutes with renaming: strings (`RenameStr.v`), trees (`RenameTree.v`, `RenameExt.v`), connections (`RenameConn.v`), execution and shapes (`RenameNet.v`); failures are equal too. Two witnesses show that names beginning with the reserved keys change the meaning.

*Extent:* false of the code as stated: names beginning with 'input'/'output' change acceptance and output structure (C11_inputs_name_refuted, C11_output_layer_name_refuted). Proved for every injective renaming of the names at the top level that leaves the empty name, numbers and names beginning with 'input'/'output' alone: the call gives the same output or the same failure and the renamed state (C11_renaming_partial), the same order (C11_execution_order_partial) and the same shapes (C11_shapes_partial). Missing: renaming of modules nested inside containers.

*Theorems:* `C11_order_commutes_with_renaming_partial`, `C11_inputs_name_refuted`, `C11_output_layer_name_refuted`, `C11_renaming_partial`, `C11_execution_order_partial`, `C11_shapes_partial` (in `Props_Conn, Props_Rename.v`)

### C12 Graph model computes the dataflow semantics (proved)

*Modelled:* `NonSequentialModel._get_callable` and everything `compile` computes for it (`NonSeq.v`), modules as arbitrary functions of parameters, data, state and key.

*Proof:* the callable is shown to compute the unique solution of the dataflow equations of the network the user wrote (`NonSeqSpec.v`); soundness by induction over the execution order, completeness from topological order; the two directions give uniqueness.

*Extent:* for networks written as in good_network (clean paths to existing modules, canonical indices, no name beginning with the letters of a reserved key); evaluation is shown equal to the unique solution of the order-free dataflow equations; when such a network compiles and runs is C66. A network mixing numeric and other keys in one dictionary may be impossible to call (C12_mixed_keys_refuted)

*Theorems:* `C12_dataflow_semantics`, `C12_solutions_computed`, `C12_mixed_keys_refuted` (in `Props_NonSeq.v`)

### C13 Unconnected modules have no influence (proved)

*Modelled:* `NonSequentialModel._get_callable` and everything `compile` computes for it (`NonSeq.v`), modules as arbitrary functions of parameters, data, state and key.

*Proof:* the callable is shown to compute the unique solution of the dataflow equations of the network the user wrote (`NonSeqSpec.v`); soundness by induction over the execution order, completeness from topological order; the two directions give uniqueness.

*Extent:* same class of networks as C12

*Theorems:* `C13_unconnected_irrelevant`, `C13_unconnected_state_kept` (in `Props_NonSeq.v`)

### C14 Module state is updated exactly once and in place (proved)

*Modelled:* `NonSequentialModel._get_callable` and everything `compile` computes for it (`NonSeq.v`), modules as arbitrary functions of parameters, data, state and key.

*Proof:* the callable is shown to compute the unique solution of the dataflow equations of the network the user wrote (`NonSeqSpec.v`); soundness by induction over the execution order, completeness from topological order; the two directions give uniqueness.

*Extent:* same class of networks as C12

*Theorems:* `C14_state_update` (in `Props_NonSeq.v`)

### C15 A forward pass does not modify its arguments (partial)

*Modelled:* the state object of `_get_callable` L849 as an explicit alias: the function returns the caller's object.

*Proof:* witness for the mutation; frame lemma for the parts that are not executed.

*Extent:* false of the code: the bare callable of a graph model assigns into the caller's state object (C15_state_argument_modified_refuted)

*Theorems:* `C15_state_argument_modified_refuted`, `C15_unexecuted_parts_kept_partial` (in `Props_NonSeq.v`)

### C16 Announced shapes are the real shapes (proved)

*Modelled:* `_get_shape_progression`, `compile` and `get_output_shape` of both model kinds.

*Proof:* the shape pass is the forward pass of another interpretation of the modules, so the dataflow theorem is used twice and related by a simulation.

*Extent:* graph models: C16_graph_shapes (networks as in C12); sequential models: C16_sequential_shapes

*Theorems:* `C16_graph_shapes`, `C16_sequential_shapes` (in `Props_NonSeq, Props_Seq.v`)

### C17 Sequential model is left-to-right composition (proved)

*Modelled:* `SequentialModel._get_callable` with JAX's flattening of module trees (sorted dictionary keys), `flatten_up_to`, `unflatten` and the leaf predicate of L323-326 (`Seq.v`).

*Proof:* the reduction over the flattened tree equals the fold over the list of leaves; order lemma for sorted keys; key splitting as an arbitrary function.

*Extent:* module dictionaries have string keys; jax.random.split is only assumed to return as many keys as asked for

*Theorems:* `C17_sequential_composition`, `C17_composition_computed`, `C17_nesting_irrelevant` (in `Props_Seq.v`)

### C18 Dictionary order of modules is application order (partial)

*Modelled:* `SequentialModel._get_callable` with JAX's flattening of module trees (sorted dictionary keys), `flatten_up_to`, `unflatten` and the leaf predicate of L323-326 (`Seq.v`).

*Proof:* the reduction over the flattened tree equals the fold over the list of leaves; order lemma for sorted keys; key splitting as an arbitrary function.

*Extent:* false of the code: dictionary keys are applied in sorted order (C18_insertion_order_refuted); true when inserted in sorted order

*Theorems:* `C18_insertion_order_refuted`, `C18_sorted_insertion_partial` (in `Props_Seq.v`)

### C19 Chain graph equals sequential model (partial)

*Modelled:* both model kinds together.

*Proof:* a chain network is shown to compile (C66) and its dataflow equations are solved by the fold of the sequential model, and conversely.

*Extent:* Both directions proved for chains of any length through any module tree (the graph model of a chain always compiles), for modules that ignore the random key and have parameters other than None (the sequential model raises for None). Assumes plain names (C07, C08, C11) and path keys in the same place all numbers or all names; without the latter the graph model need not compile though the sequential model works (C19_mixed_keys_refuted).

*Theorems:* `C19_chain_is_sequential`, `C19_sequential_is_chain`, `C19_mixed_keys_refuted` (in `Props_Chain, Props_Compile.v`)

### C20 Randomness is independent across modules (partial)

*Modelled:* `SequentialModel._get_callable` with JAX's flattening of module trees (sorted dictionary keys), `flatten_up_to`, `unflatten` and the leaf predicate of L323-326 (`Seq.v`).

*Proof:* the reduction over the flattened tree equals the fold over the list of leaves; order lemma for sorted keys; key splitting as an arbitrary function.

*Extent:* sequential models proved, assuming jax.random.split returns different keys; false for graph models, where every module gets the same key (C20_graph_keys_refuted)

*Theorems:* `C20_graph_keys_refuted`, `C20_graph_same_key`, `C20_sequential_keys` (in `Props_Seq.v`)

### C21 Automatic batching is transparent (partial)

*Modelled:* `autobatch`, `batch_leaves`, `pytree_split` and friends over lists of rows (`Batch.v`).

*Proof:* list arithmetic with quotient and remainder; the padding of the last batch is shown to be cut off again.

*Extent:* proved for all batch sizes without recompilation avoidance, and with it when every array has at least two axes; false otherwise (C21_one_axis_refuted: x[j][None, :] on a row that is a scalar)

*Theorems:* `C21_batching_transparent`, `C21_one_axis_refuted` (in `Props_Batch.v`)

### C22 Automatic batching threads state (proved)

*Modelled:* `autobatch`, `batch_leaves`, `pytree_split` and friends over lists of rows (`Batch.v`).

*Proof:* list arithmetic with quotient and remainder; the padding of the last batch is shown to be cut off again.

*Extent:* with recompilation avoidance for arrays of at least two axes (see C21_one_axis_refuted); scan's stacking and reshaping is modelled as concatenation

*Theorems:* `C22_state_threaded`, `C22_single_call` (in `Props_Batch.v`)

### C23 Splitting into batches is lossless (partial)

*Modelled:* `autobatch`, `batch_leaves`, `pytree_split` and friends over lists of rows (`Batch.v`).

*Proof:* list arithmetic with quotient and remainder; the padding of the last batch is shown to be cut off again.

*Extent:* proved for 1 <= size <= number of rows; a larger size is a TypeError, not one short remainder (C23_oversized_batch_refuted)

*Theorems:* `C23_split_lossless`, `C23_oversized_batch_refuted` (in `Props_Batch.v`)

### C24 Shuffling keeps samples aligned (proved)

*Modelled:* `random_permute_leaves` and the batch loop of `_train`; `jax.random.permutation` as a permutation depending on key and length.

*Proof:* permutation lemmas; the samples used in an epoch are a permutation of the data.

*Extent:* jax.random.permutation is modelled as a permutation that depends on the key and the axis length only

*Theorems:* `C24_shuffle_aligned`, `C24_shuffle_total` (in `Props_Batch.v`)

### C25 Each epoch uses each sample once (proved)

*Modelled:* `random_permute_leaves` and the batch loop of `_train`; `jax.random.permutation` as a permutation depending on key and length.

*Proof:* permutation lemmas; the samples used in an epoch are a permutation of the data.

*Extent:* jax.random.permutation is modelled as a permutation; batch size between 1 and the number of samples (train() clamps it)

*Theorems:* `C25_each_sample_once` (in `Props_Train.v`)

### C26 Returned parameters are the best seen (proved)

*Modelled:* the loop of `_train` as a state machine over arbitrary epoch results, optimizer updates and callbacks (`Train.v`).

*Proof:* invariants over iterations; exact characterisation of the iteration at which the loop stops.

*Extent:* losses live in any type with a NaN-aware order (fl_order); the initial model and the first epoch share the same best_epoch number in the code

*Theorems:* `C26_best_checkpoint` (in `Props_Train.v`)

### C27 Training stops when it should (partial)

*Modelled:* the loop of `_train` as a state machine over arbitrary epoch results, optimizer updates and callbacks (`Train.v`).

*Proof:* invariants over iterations; exact characterisation of the iteration at which the loop stops.

*Extent:* proved exactly (C27_stops_exactly) with interrupts noticed in verbose mode only; with verbose=False an interrupt is never noticed (C27_quiet_interrupt_refuted)

*Theorems:* `C27_stops_exactly`, `C27_terminates`, `C27_nothing_to_train`, `C27_quiet_interrupt_refuted` (in `Props_Train.v`)

### C28 Frozen parameters do not change (partial)

*Modelled:* the loop of `_train` as a state machine over arbitrary epoch results, optimizer updates and callbacks (`Train.v`).

*Proof:* invariants over iterations; exact characterisation of the iteration at which the loop stops.

*Extent:* proved when the user's callback keeps frozen parameters; a callback that changes them does change them (C28_callback_refuted); which arrays are flagged frozen for nested models is C95

*Theorems:* `C28_frozen_unchanged`, `C28_own_gradient`, `C28_callback_refuted` (in `Props_Train.v`)

### C29 Validation loss does not depend on batch size (partial)

*Modelled:* validation loss over rationals.

*Proof:* algebra for equal batches; witness for a short last batch.

*Extent:* proved over the rationals when the batch size divides the number of samples; false otherwise because batch losses are averaged unweighted (C29_refuted)

*Theorems:* `C29_divisible_partial`, `C29_refuted` (in `Props_Train.v`)

### C30 Optimizer epoch counter (partial)

*Modelled:* the loop of `_train` as a state machine over arbitrary epoch results, optimizer updates and callbacks (`Train.v`).

*Proof:* invariants over iterations; exact characterisation of the iteration at which the loop stops.

*Extent:* true for the real optimizer within a run (C30_real_counter); false for the complex one (C30_complex_refuted), and the returned state is one epoch behind (C30_resume_refuted)

*Theorems:* `C30_real_counter`, `C30_complex_counter`, `C30_complex_refuted`, `C30_resume_refuted` (in `Props_Train.v`)

### C31 Training arguments are validated (partial)

*Modelled:* argument handling of `train` and `Model.train` as a decision procedure (`TrainArgs.v`).

*Proof:* case analysis against the documented rules, stated separately; witnesses for the accepted nonsense.

*Extent:* acceptance is characterised exactly (C31_accepted_iff, with the sizes of the batches in C31_batch_sizes and the data handed on in C31_accepted), the losses that can be called too (C31_losses_called, C31_losses_only), and ValueError for senseless combinations (C31_value_error); false of the code for validation targets without validation inputs, dropped validation uncertainties, custom validation losses without validation data, missing targets and non-positive batch sizes (the _refuted theorems)

*Theorems:* `C31_accepted`, `C31_rejected`, `C31_value_error`, `C31_losses_called`, `C31_losses_only`, `C31_val_targets_ignored_refuted`, `C31_val_unc_ignored_refuted`, `C31_custom_val_loss_refuted`, `C31_missing_targets_refuted`, `C31_batch_size_refuted`, `C31_accepted_iff`, `C31_batch_sizes` (in `Props_TrainArgs.v`)

### C32 Loss functions (partial)

*Modelled:* `make_loss_fn` and the tree arithmetic it uses, over exact complex numbers with one extra element for everything not finite (`Loss.v`).

*Proof:* each loss equals its formula written with sums over rows (`LossSpec.v`); witnesses by computation over rationals embedded in the reals.

*Extent:* value, zero on perfect prediction, non-negativity and the meaning of every name (C32_names_mean, C32_huber_parameter) proved over exact complex numbers (non-finite values are one extra element); false of the code: names beginning with pseudo_huber are accepted, relative errors are not finite at -1e-4, pseudo_huber fails on anything but a bare array, outputs of different shapes fail

*Theorems:* `C32_value`, `C32_uncertainties_unused`, `C32_perfect`, `C32_nonneg`, `C32_known_names`, `C32_unknown_names`, `C32_names_mean`, `C32_huber_parameter`, `C32_misspelt_refuted`, `C32_relative_refuted`, `C32_huber_tree_refuted`, `C32_mixed_shapes_refuted` (in `Props_Loss.v`)

### C33 Module editing is sequence editing (partial)

*Modelled:* editing methods on a heap of containers (`Edit.v`).

*Proof:* refinement to operations on lists of pairs; histories by induction; aliasing of lists by a heap witness and its universal version.

*Extent:* insert/prepend/append/pop/replace proved to be the sequence operation for lists, tuples and dictionaries; every operation, failing or not, leaves the model not compiled, other containers alone and (failing) the modules unchanged; histories. Refuted: tuple pop with index -1 duplicates the others (for every tuple), tuple item replacement always raises TypeError, insert under an existing key drops or replaces, append after an empty nested container is not at the end, appended dictionary entries need not run last. Keys that are paths into nested containers are C114.

*Theorems:* `C33_insert`, `C33_prepend`, `C33_append`, `C33_pop`, `C33_pop_out_of_range`, `C33_pop_key`, `C33_replace_index`, `C33_replace_key`, `C33_frame`, `C33_history`, `C33_tuple_pop_last_refuted`, `C33_tuple_pop_last_always`, `C33_tuple_replace_refuted`, `C33_tuple_replace_always`, `C33_insert_existing_key_refuted`, `C33_append_refuted`, `C33_dict_append_order_refuted` (in `Props_Edit.v`)

### C34 Combining models leaves the operands intact (partial)

*Modelled:* editing methods on a heap of containers (`Edit.v`).

*Proof:* refinement to operations on lists of pairs; histories by induction; aliasing of lists by a heap witness and its universal version.

*Extent:* Proved for tuple and dictionary containers: the sum is a new model holding a's entries then b, and every existing container is unchanged. Refuted (for every list of modules): the list of the left operand is extended in place and shared while it stays compiled. Refuted: sum over a dictionary can run the second operand first.

*Theorems:* `C34_add_partial`, `C34_list_refuted`, `C34_list_always`, `C34_order_refuted` (in `Props_Edit.v`)

### C35 Evaluation always uses the current modules (partial)

*Modelled:* the caches of `Model` (callable, gradients, autobatch wrappers, jit traces) as a state machine (`Cache.v`).

*Proof:* invariants over histories of actions describing which modules, parameters and mode an evaluation uses; witnesses for stale caches.

*Extent:* State machine of edits, compile, set_hyperparameters, in-place module changes, training, calls and both gradients, with the caches, jit traces and autobatch wrappers. Proved for all histories: current parameters and state, which are those last handed over by compiling, training, loading or setting them (C35_up_to_date), right quantity; current modules for histories that change modules (other than by editing methods or deserialize) only before the first evaluation after a reset. An evaluation or training is answered exactly if there are modules, all ready, with known shapes and the input shape of the model (C35_answered). Refuted: recompiling a SequentialModel, set_hyperparameters with modules, in-place changes of a module. Missing: the nested case is covered only as an in-place change of a module.

*Theorems:* `C35_values`, `C35_up_to_date`, `C35_current_partial`, `C35_answered`, `C35_recompile_refuted`, `C35_set_hyperparameters_refuted`, `C35_in_place_refuted` (in `Props_Cache.v`)

### C36 Save/load round trip of models (partial)

*Modelled:* `serialize`/`deserialize`/`copy` of modules class by class (`Modules.v`) and of nested models (`Serial.v`), and the file round trip of containers.

*Proof:* per class: reachable objects copy to objects with the same attributes; models: nested induction. Witnesses for lost attributes.

*Extent:* Proved for every nested sequential or graph model whose modules copy (C37) and accept their own parameters back, with proofs for the built-in classes; evaluation order preserved. Refuted: uncompiled models with an affine matrix are saved but cannot be loaded; tuples of modules and ragged nested lists cannot go through a file (exact iff proved); dictionary insertion order is lost. Not modelled: user modules with own state, subclasses of the models with further attributes.

*Theorems:* `C36_roundtrip_partial`, `C36_leaves`, `C36_settled_plain`, `C36_settled_set`, `C36_settled_affine_hermitian`, `C36_settled_affine_tensor`, `C36_settled_expectation`, `C36_settled_bias`, `C36_file_partial`, `C36_file_tuple_refuted`, `C36_file_ragged_refuted`, `C36_uncompiled_refuted`, `C36_dict_order_refuted` (in `Props_Serial.v`)

### C37 Save/load round trip of every module kind (partial)

*Modelled:* `serialize`/`deserialize`/`copy` of modules class by class (`Modules.v`) and of nested models (`Serial.v`), and the file round trip of containers.

*Proof:* per class: reachable objects copy to objects with the same attributes; models: nested induction. Witnesses for lost attributes.

*Extent:* Proved per class: copying through serialize and deserialize gives the same attributes (and hence the same behaviour) for Eigen-type, Reshape, TreeFlatten, TreeKey, Comment, Constant, PReLU, Einsum, Bias, AffineHermitianMatrix, AffineTensor, ExpectationValueSum. Exact conditions proved (_partial) and counterexamples (_refuted) for activations with arguments that are not serialisable, ConcatenateLeaves, MatMul (separator lost), LowRank, AffineEigenvaluePMM (uncompiled Ms/Ds/b lost), LinearNN (activation lost), complex Bias.

*Theorems:* `C37_eigen`, `C37_reshape`, `C37_treeflatten`, `C37_treekey`, `C37_comment`, `C37_constant`, `C37_prelu`, `C37_einsum`, `C37_bias`, `C37_bias_refuted`, `C37_affine_hermitian`, `C37_affine_tensor`, `C37_expectation`, `C37_activation_partial`, `C37_activation_refuted`, `C37_concatenate_partial`, `C37_concatenate_refuted`, `C37_matmul_partial`, `C37_matmul_refuted`, `C37_lowrank_always`, `C37_lowrank_refuted`, `C37_eigenvalue_pmm_partial`, `C37_eigenvalue_pmm_refuted`, `C37_linearnn_partial`, `C37_linearnn_refuted` (in `Props_Modules.v`)

### C38 Precision setting (partial)

*Modelled:* data types, `set_precision`, `astype`, `safecast` (`Precision.v`).

*Proof:* case analysis on spellings; induction over trees and nesting.

*Extent:* Proved for ready models at every nesting depth: success exactly for the documented spellings, conversion of every array, idempotence, real and complex kinds kept; same for safecast. Refuted: integer and boolean arrays become floats; a ready graph model with an unused uncompiled module raises. The conversion of array contents (astype) is an argument with two stated properties.

*Theorems:* `C38_spellings`, `C38_converts`, `C38_idempotent`, `C38_kind_partial`, `C38_integer_refuted`, `C38_unused_module_refuted`, `C38_safecast` (in `Props_Precision.v`)

### C39 Scaler round trips (partial)

*Modelled:* the four scalers over real numbers with an extra element for division by zero (`Scaler.v`).

*Proof:* real algebra, lifted over trees; statistics over lists.

*Extent:* Standard, min-max and mixed scalers are proved to undo themselves and to be affine per feature on every tree of data with one number of samples (other trees are refused, C39_samples). Robust scaling is proved for leaves without scaling or with one feature and refuted otherwise: with two or more features transform raises ValueError (truth value of an array).

*Theorems:* `C39_standard`, `C39_standard_increasing`, `C39_minmax`, `C39_minmax_increasing`, `C39_robust_partial`, `C39_robust_features`, `C39_robust_refuted`, `C39_robust_always_refuted`, `C39_mixed`, `C39_samples` (in `Props_Scaler.v`)

### C40 Scalers normalise (proved)

*Modelled:* the four scalers over real numbers with an extra element for division by zero (`Scaler.v`).

*Proof:* real algebra, lifted over trees; statistics over lists.

*Extent:* Standard scaling gives mean 0 and variance 1 on varied data; min-max scaling spans its range; constant features are lost (real arithmetic instead of floats).

*Theorems:* `C40_standard`, `C40_constant_lost`, `C40_minmax` (in `Props_Scaler.v`)

### C41 One-hot encoding (partial)

*Modelled:* `OneHot` fit/transform/inverse over any lawful numbers (`OneHot.v`), called through the check of their annotations (`ScalerTyped.v`).

*Proof:* sorted-list lemmas; the exact condition on the rows is found and shown necessary.

*Extent:* Proved exactly for data whose rows are comparable entry by entry (always so with one feature) and whose leaves have the same number of different rows, and shown that both conditions are needed (C41_chain_needed, C41_categories); refuted in general, since fit sorts each column of the unique rows on its own, and since the annotation of transform has one num_unique for all leaves.

*Theorems:* `C41_chain_partial`, `C41_categories`, `C41_one_hot`, `C41_distinct`, `C41_one_feature`, `C41_chain_needed`, `C41_unseen`, `C41_refuted`, `C41_always_refuted`, `C41_categories_refuted` (in `Props_OneHot.v`)

### C42 Conformal coverage guarantee (partial)

*Modelled:* conformal calibration, quantiles, intervals, cached quantiles, robust normalisation and weighted quantile over real numbers (`Conformal.v`).

*Proof:* counting argument on sorted scores for coverage; monotonicity; state machine for the cache; witnesses over reals decided by hand.

*Extent:* Proved: the coverage guarantee for every n and alpha >= 1/(n+1), the exact condition for it, the rank of the reported quantile, order independence and the per-feature value on trees. Refuted for alpha < 1/(n+1): the level exceeds 1 and is silently clamped, so the largest score is used. Not covered: NaN or infinite scores.

*Theorems:* `C42_coverage_partial`, `C42_condition`, `C42_refuted`, `C42_always_refuted`, `C42_features`, `C42_rank`, `C42_order` (in `Props_Conformal.v`)

### C43 Conformal intervals (proved)

*Modelled:* conformal calibration, quantiles, intervals, cached quantiles, robust normalisation and weighted quantile over real numbers (`Conformal.v`).

*Proof:* counting argument on sorted scores for coverage; monotonicity; state machine for the cache; witnesses over reals decided by hand.

*Extent:* Intervals on whole trees, nesting for non-negative scales, rejection of bad alphas and of uncalibrated models. The wrapped model's prediction and the scales are arguments.

*Theorems:* `C43_inside`, `C43_normalised`, `C43_nested`, `C43_rejected` (in `Props_Conformal.v`)

### C44 Recalibration takes effect (partial)

*Modelled:* conformal calibration, quantiles, intervals, cached quantiles, robust normalisation and weighted quantile over real numbers (`Conformal.v`).

*Proof:* counting argument on sorted scores for coverage; monotonicity; state machine for the cache; witnesses over reals decided by hand.

*Extent:* Refuted: calibrate keeps the cached quantiles, so a level asked for before recalibrating keeps its old quantile (for every object and everything that follows: C44_quantiles_stay). Proved: exactly which scores every query uses, for all histories, and the property for levels not asked for before.

*Theorems:* `C44_quantiles_stay`, `C44_first_request_partial`, `C44_nonempty`, `C44_exact`, `C44_exact_total`, `C44_refuted`, `C44_always_refuted` (in `Props_ConfState, Props_Conformal.v`)

### C45 Robust normalisation scales are usable (proved)

*Modelled:* conformal calibration, quantiles, intervals, cached quantiles, robust normalisation and weighted quantile over real numbers (`Conformal.v`).

*Proof:* counting argument on sorted scores for coverage; monotonicity; state machine for the cache; witnesses over reals decided by hand.

*Extent:* Finite rows have all entries >= eps and at most the range; the infinite row is returned iff some feature varies by less than eps. Without weights.

*Theorems:* `C45_usable`, `C45_infinite`, `C45_cases` (in `Props_Conformal.v`)

### C46 Weighted quantile (partial)

*Modelled:* conformal calibration, quantiles, intervals, cached quantiles, robust normalisation and weighted quantile over real numbers (`Conformal.v`).

*Proof:* counting argument on sorted scores for coverage; monotonicity; state machine for the cache; witnesses over reals decided by hand.

*Extent:* Range proved for positive weights. Refuted: with equal weights the result depends on the order of the samples (sorting is by weight, not by data); partial: order independence for pairwise different positive weights. For arrays of more than one dimension, which is how the code calls it, it always raises.

*Theorems:* `C46_range`, `C46_distinct_weights_partial`, `C46_two`, `C46_refuted`, `C46_always_refuted`, `C46_matrices_rejected` (in `Props_Conformal.v`)

### C47 Parametric matrix is Hermitian (proved)

*Modelled:* affine Hermitian, low-rank and tensor modules, smoothing, expectation and transition sums over matrices of a closed field with conjugation (`Herm.v`, mathcomp).

*Proof:* matrix algebra; conjugation by unitary matrices; rank bound.

*Extent:* For arbitrary complex parameters, real features and real smoothing, in exact arithmetic over any closed field with conjugation; full and low-rank module; also the value, the rank bound and that complex features can break it.

*Theorems:* `C47_value`, `C47_hermitian`, `C47_eigenvalues`, `C47_hermitian_params`, `C47_low_rank`, `C47_low_rank_bound` (in `Props_Herm.v`)

### C48 Smoothing term is the sum of pairwise commutators (proved)

*Modelled:* affine Hermitian, low-rank and tensor modules, smoothing, expectation and transition sums over matrices of a closed field with conjugation (`Herm.v`, mathcomp).

*Proof:* matrix algebra; conjugation by unitary matrices; rank bound.

*Extent:* All counts and sizes, exact arithmetic.

*Theorems:* `C48_pairs`, `C48_hermitian`, `C48_commuting` (in `Props_Herm.v`)

### C49 Eigenvalue selection (proved)

*Modelled:* eigenvalue selection with Python slicing and the three eigen modules (`Eigen.v`).

*Proof:* the selected indices are characterised by order statistics; shapes by tree maps.

*Extent:* All eight rules, every 1 <= k <= n, all spectra; ties resolved arbitrarily by the specification. np.argsort is modelled as a stable sort.

*Theorems:* `C49_selection`, `C49_all`, `C49_values`, `C49_invalid` (in `Props_Eigen.v`)

### C50 Eigenvalue module shapes (partial)

*Modelled:* eigenvalue selection with Python slicing and the three eigen modules (`Eigen.v`).

*Proof:* the selected indices are characterised by order statistics; shapes by tree maps.

*Extent:* Proved for Eigenvectors and Eigensystem on all trees and counts, and for Eigenvalues with a count or a single array. Refuted for Eigenvalues with num_eig=None on other trees: get_output_shape indexes the whole tree of shapes (input_shape[0]), which raises KeyError on dictionaries and announces nested tuples on lists and tuples.

*Theorems:* `C50_eigenvectors`, `C50_eigensystem`, `C50_eigenvalues_partial`, `C50_eigenvalues_dict`, `C50_eigh_ok`, `C50_refuted`, `C50_list_refuted`, `C50_always_refuted` (in `Props_Eigen.v`)

### C51 Einsum batch index is fresh (partial)

*Modelled:* string processing, dimension maps, compile and call of `Einsum` (`Einsum.v`) with a definitional einsum over any ring.

*Proof:* string lemmas for the fresh batch letter; the batched einsum at sample b is the user's einsum on sample b.

*Extent:* Proved for every form of the notation unless the first of several data operands is a scalar; with an empty first group the code drops the operand (refuted with witness).

*Theorems:* `C51_batch_index_fresh`, `C51_text_accepted`, `C51_batch_everywhere_refuted`, `C51_accepted_refuted` (in `Props_Einsum.v`)

### C52 MatMul is the matrix product of the operands in path order (partial)

*Modelled:* `MatMul` on top of `Einsum` (`MatMul.v`).

*Proof:* the generated subscripts are shown to denote the matrix product by induction on the number of operands; the specification multiplies matrices of entries over a semiring.

*Extent:* Proved for up to 25 operands over any semiring (C52_matrix_product; that such modules compile and can be called is C110), with associativity of the specified product. False in general: with dictionary keys made of digits path_order is not followed (C52_product_refuted), with 26 or more operands the result is transposed (C52_many_refuted), and chains of more than fifty matrices are rejected (C52_accepted_refuted).

*Theorems:* `C52_matrix_product`, `C52_product_associative`, `C52_semiring`, `C52_one_sample`, `C52_product_refuted`, `C52_many_refuted`, `C52_accepted_refuted` (in `Props_MatMul.v`)

### C53 Reshape and flatten agree with their announced shapes (partial)

*Modelled:* `Reshape`, `Flatten`, `TreeFlatten`, `TreeKey`, `ConcatenateLeaves` on row-major arrays (`Reshape.v`, `NdArray.v`).

*Proof:* row-major index arithmetic lifted over trees; witnesses for the announced shapes that are wrong.

*Extent:* Proved for targets that fit at every leaf (C53_reshape, C53_flatten), that accepted targets of sizes can be met (C53_rejects), TreeFlatten and TreeKey. False in four cases: None entries announce None (C53_none_refuted), a tuple of one target is accepted for a single array (C53_tuple_refuted), negative sizes pass (C53_negative_refuted), Flatten of single numbers announces a float (C53_scalar_refuted).

*Theorems:* `C53_reshape`, `C53_rejects`, `C53_flatten`, `C53_tree_flatten`, `C53_tree_key`, `C53_tree_key_picks`, `C53_none_refuted`, `C53_tuple_refuted`, `C53_negative_refuted`, `C53_scalar_refuted` (in `Props_Reshape.v`)

### C54 Concatenating leaves (partial)

*Modelled:* `Reshape`, `Flatten`, `TreeFlatten`, `TreeKey`, `ConcatenateLeaves` on row-major arrays (`Reshape.v`, `NdArray.v`).

*Proof:* row-major index arithmetic lifted over trees; witnesses for the announced shapes that are wrong.

*Extent:* Proved for axis None and axes counted from zero, with or without path_order (C54_shape, C54_entries). False for negative axes: axis -1 joins the samples (C54_refuted), others are shifted by one (C54_shifted_refuted).

*Theorems:* `C54_shape`, `C54_entries`, `C54_refuted`, `C54_shifted_refuted` (in `Props_Reshape.v`)

### C55 Composite PMM modules honour their constructor arguments (partial)

*Modelled:* constructors, `compile`, `get_output_shape`, appending and adding for the two composite modules (`Composite.v`).

*Proof:* invariant over histories of compile calls: the modules are those built from the arguments; the supplied bias is shown irrelevant by simulation.

*Extent:* Proved for the matrices Ms and Ds and all options, after any history of compile calls (C55_supplied_partial). False for the bias b of AffineObservablePMM: it is never passed on (C55_supplied_bias_refuted) and makes no difference in any history (C55_bias_ignored_always).

*Theorems:* `C55_supplied_partial`, `C55_supplied_bias_refuted`, `C55_bias_ignored_always` (in `Props_Composite.v`)

### C56 Tuples keep their type when a structure is extended (partial)

*Modelled:* `extend_structure_from_strpaths` (see C04).

*Proof:* refutations by computation on a witness. Kinds: an inductive relation between base and current tree, indexed by the set of recorded addresses, kept by every walk (a tuple that is entered becomes a list and is recorded) and shrunk by every restored tuple (`ExtendKind.v`). Order: writing two paths that do not get in the way of each other commutes up to the order of dictionary entries; induction on the permutation; that relation implies Python equality (`ExtendOrder.v`).

*Extent:* false when a tuple sits directly in another non-root tuple: the call fails although there is room (C56_extend_nested_tuple_refuted); whenever the call succeeds every container keeps its kind (C56_kinds_kept_partial)

*Theorems:* `C56_kinds_kept_partial`, `C56_extend_nested_tuple_refuted` (in `Props_Extend, Props_Tree.v`)

### C57 Order of paths does not matter when extending a structure (partial)

*Modelled:* `extend_structure_from_strpaths` (see C04).

*Proof:* refutations by computation on a witness. Kinds: an inductive relation between base and current tree, indexed by the set of recorded addresses, kept by every walk (a tuple that is entered becomes a list and is recorded) and shrunk by every restored tuple (`ExtendKind.v`). Order: writing two paths that do not get in the way of each other commutes up to the order of dictionary entries; induction on the permutation; that relation implies Python equality (`ExtendOrder.v`).

*Extent:* false in general: an index-like key seen first fixes the container to a list (C57_extend_order_independent_refuted); for paths none of which begins another, with standard indices and uniform keys, every order succeeds with == results (C57_order_independent_partial)

*Theorems:* `C57_order_independent_partial`, `C57_extend_order_independent_refuted` (in `Props_Extend, Props_Tree.v`)

### C58 Predictions of the wrong shape are rejected (partial)

*Modelled:* `make_loss_fn` and the tree arithmetic it uses, over exact complex numbers with one extra element for everything not finite (`Loss.v`).

*Proof:* each loss equals its formula written with sums over rows (`LossSpec.v`); witnesses by computation over rationals embedded in the reals.

*Extent:* structure mismatches are rejected (C58_structure_partial); shape mismatches are broadcast (C58_refuted)

*Theorems:* `C58_structure_partial`, `C58_refuted` (in `Props_Loss.v`)

### C59 A failed compilation does not leave a usable model (partial)

*Modelled:* the caches of `Model` (callable, gradients, autobatch wrappers, jit traces) as a state machine (`Cache.v`).

*Proof:* invariants over histories of actions describing which modules, parameters and mode an evaluation uses; witnesses for stale caches.

*Extent:* Proved: a SequentialModel that was never compiled is not ready after a failed compilation, unless all that is wrong is that its output has no axes (C59_sequential_partial); a NonSequentialModel of modules that were not ready is not ready after it, provided that modules do not become ready by compilations that raise (C59_graph_partial); a ready NonSequentialModel is untouched (C59_ready_graph). Refuted: a compiled SequentialModel stays ready with modules compiled for different shapes (C59_refuted); new models of both kinds are ready after the ValueError about an output without axes (C59_no_axes_refuted); a new NonSequentialModel of ready modules is ready after a module could not be compiled (C59_ready_modules_refuted).

*Theorems:* `C59_sequential_partial`, `C59_graph_partial`, `C59_ready_graph`, `C59_refuted`, `C59_no_axes_refuted`, `C59_ready_modules_refuted` (in `Props_Cache.v`)

### C60 The requested differentiation mode is used (partial)

*Modelled:* the caches of `Model` (callable, gradients, autobatch wrappers, jit traces) as a state machine (`Cache.v`).

*Proof:* invariants over histories of actions describing which modules, parameters and mode an evaluation uses; witnesses for stale caches.

*Extent:* Proved for the first gradient call after a reset and for one directly after a gradient with other batching options (C60_other_options_partial). Refuted: a later call with another fwd keeps the old mode unless batching options change.

*Theorems:* `C60_first_partial`, `C60_other_options_partial`, `C60_refuted` (in `Props_Cache.v`)

### C61 Observable outputs do not depend on the choice of eigenvectors (proved)

*Modelled:* affine Hermitian, low-rank and tensor modules, smoothing, expectation and transition sums over matrices of a closed field with conjugation (`Herm.v`, mathcomp).

*Proof:* matrix algebra; conjugation by unitary matrices; rank bound.

*Extent:* Exact arithmetic; np.linalg.norm of the centring term is an arbitrary function of the observable.

*Theorems:* `C61_expectation`, `C61_transition`, `C61_real`, `C61_basis`, `C61_phases` (in `Props_Herm.v`)

### C62 The spectrum depends on the parameters only up to a common change of basis (proved)

*Modelled:* affine Hermitian, low-rank and tensor modules, smoothing, expectation and transition sums over matrices of a closed field with conjugation (`Herm.v`, mathcomp).

*Proof:* matrix algebra; conjugation by unitary matrices; rank bound.

*Extent:* Exact arithmetic.

*Theorems:* `C62_conjugate`, `C62_spectrum` (in `Props_Herm.v`)

### C63 Affine modules are affine in the features (proved)

*Modelled:* affine Hermitian, low-rank and tensor modules, smoothing, expectation and transition sums over matrices of a closed field with conjugation (`Herm.v`, mathcomp).

*Proof:* matrix algebra; conjugation by unitary matrices; rank bound.

*Extent:* Exact arithmetic.

*Theorems:* `C63_matrix`, `C63_tensor`, `C63_shape` (in `Props_Herm.v`)

### C64 Einsum treats every sample by itself (proved)

*Modelled:* string processing, dimension maps, compile and call of `Einsum` (`Einsum.v`) with a definitional einsum over any ring.

*Proof:* string lemmas for the fresh batch letter; the batched einsum at sample b is the user's einsum on sample b.

*Extent:* For every notation whose first data operand is not the empty string of several, with one string per data array (otherwise the numbers of strings and arrays need not agree).

*Theorems:* `C64_samples_independent`, `C64_samples_exist` (in `Props_Einsum.v`)

### C65 Einsum announces the shape it produces (partial)

*Modelled:* string processing, dimension maps, compile and call of `Einsum` (`Einsum.v`) with a definitional einsum over any ring.

*Proof:* string lemmas for the fresh batch letter; the batched einsum at sample b is the user's einsum on sample b.

*Extent:* Proved for at most one parameter array; with several parameter arrays the code takes the arrays for their shapes and raises (refuted with witness).

*Theorems:* `C65_shape_announced`, `C65_announced_refuted` (in `Props_Einsum.v`)

### C66 Well-formed networks compile (partial)

*Modelled:* everything `NonSequentialModel.compile` computes.

*Proof:* each step is shown to succeed on well-formed networks (`ExtendOk.v`, `CompileOk.v`), and acceptance by the resolver is translated to reachability in the network the user wrote.

*Extent:* About the wiring: the modules must accept the shapes they get, and the output must pass the check of C135 as well. Proved (if and only if) for module trees whose target keys in the same place are all numbers or all names, with plain names as in C07/C08/C11; a dictionary of modules mixing both kinds of keys does not compile (refuted with witness).

*Theorems:* `C66_compiles_iff`, `C66_runs_if_modules_do`, `C66_mixed_keys_refuted` (in `Props_Compile.v`)

### C67 Edits of composite modules survive compilation (partial)

*Modelled:* constructors, `compile`, `get_output_shape`, appending and adding for the two composite modules (`Composite.v`).

*Proof:* invariant over histories of compile calls: the modules are those built from the arguments; the supplied bias is shown irrelevant by simulation.

*Extent:* False of the code: a composite module rebuilds its list of modules after every reset, so appended modules are lost together with trained parameters (always, not only for the witness), and the sum with + hands the modules over as matrix_size and never compiles. Proved: compiling again for the same single-array shape changes nothing.

*Theorems:* `C67_append_refuted`, `C67_append_lost_always`, `C67_append_starts_over_always`, `C67_sum_never_compiles_always`, `C67_recompile_partial` (in `Props_Composite.v`)

### C68 Composite modules announce the shape they produce (partial)

*Modelled:* constructors, `compile`, `get_output_shape`, appending and adding for the two composite modules (`Composite.v`).

*Proof:* invariant over histories of compile calls: the modules are those built from the arguments; the supplied bias is shown irrelevant by simulation.

*Extent:* Proved when num_eig / output_size are given; with num_eig=None the eigenvalue module announces None, and without output_size the observable module announces nothing although Ds determines it.

*Theorems:* `C68_announced_partial`, `C68_all_eigenvalues_refuted`, `C68_size_from_observables_refuted` (in `Props_Composite.v`)

### C69 Activation modules act sample by sample and keep the announced shape (partial)

*Modelled:* `ActivationBase` with the kinds of functions in the generated file: entry by entry, along the last axis, GLU and reductions over everything, and the run-time check of the batch axis (`Layers.v`).

*Proof:* entries of the result are computed from the row-major position arithmetic; a row of the last axis never crosses a sample once there is a feature axis.

*Extent:* Refuted: GLU halves the last axis but announces the input shape (C69_shape_refuted), and softmax-like functions on one number per sample run over the batch axis, so samples influence each other (C69_samples_mixed_refuted). Proved for the entry-by-entry functions (C69_entrywise) and, when every sample has at least one axis, for functions along the last axis (C69_rowwise, C69_rowwise_samples). Reductions over everything (AMax, AMin, LogSumExp without arguments) are always rejected by the run-time type check (C69_reductions_rejected). The values of GLU are described by C69_glu_value. OneHot, frexp, packbits and unpackbits are not modelled.

*Theorems:* `C69_entrywise`, `C69_rowwise`, `C69_rowwise_samples`, `C69_reductions_rejected`, `C69_shape_refuted`, `C69_glu_value`, `C69_samples_mixed_refuted` (in `Props_Layers.v`)

### C70 A Bias module adds its parameters and keeps the shape (partial)

*Modelled:* constructors, `compile`, the callables and `set_params` of `Bias`, `Constant` and `PReLU` (`Layers.v`).

*Proof:* broadcasting a parameter of the sample shape (or one number) against a batch is computed entry by entry; trees are handled by relating leaves; PReLU by an invariant over arbitrary histories.

*Extent:* Refuted: set_params of a compiled module accepts arrays of other shapes, after which the announced shape is wrong (C70_shapes_refuted) or samples get different biases (C70_samples_refuted). Proved whenever the parameters keep their shapes (C70_bias_adds), for every way of constructing the module. Given numbers must be of the announced kind, real or complex (C70_kind); a scalar module never holds more than one number (C70_scalar).

*Theorems:* `C70_bias_adds`, `C70_kind`, `C70_scalar`, `C70_shapes_refuted`, `C70_samples_refuted` (in `Props_Layers.v`)

### C71 A Constant module returns its constant for every sample (partial)

*Modelled:* constructors, `compile`, the callables and `set_params` of `Bias`, `Constant` and `PReLU` (`Layers.v`).

*Proof:* broadcasting a parameter of the sample shape (or one number) against a batch is computed entry by entry; trees are handled by relating leaves; PReLU by an invariant over arbitrary histories.

*Extent:* Refuted: set_params accepts any tree while the announced shape stays (C71_shapes_refuted). Proved for the constant the module has after compile (C71_constant_repeats).

*Theorems:* `C71_constant_repeats`, `C71_shapes_refuted` (in `Props_Layers.v`)

### C72 A compiled PReLU multiplies negative entries with its slopes (proved)

*Modelled:* constructors, `compile`, the callables and `set_params` of `Bias`, `Constant` and `PReLU` (`Layers.v`).

*Proof:* broadcasting a parameter of the sample shape (or one number) against a batch is computed entry by entry; trees are handled by relating leaves; PReLU by an invariant over arbitrary histories.

*Extent:* For every history of compile and set_params calls, failing ones included. set_hyperparameters is not part of the histories (it refuses to run once there are parameters).

*Theorems:* `C72_prelu` (in `Props_Layers.v`)

### C73 Parameters set before compiling are kept by compile (partial)

*Modelled:* constructors, `compile`, the callables and `set_params` of `Bias`, `Constant` and `PReLU` (`Layers.v`).

*Proof:* broadcasting a parameter of the sample shape (or one number) against a batch is computed entry by entry; trees are handled by relating leaves; PReLU by an invariant over arbitrary histories.

*Extent:* Refuted for PReLU, whose compile draws new slopes unless an input shape is already known (C73_prelu_refuted); proved for Bias and Constant (C73_bias_kept, C73_constant_kept).

*Theorems:* `C73_bias_kept`, `C73_constant_kept`, `C73_prelu_refuted` (in `Props_Layers.v`)

### C74 Bias corrections centre the calibration residuals (partial)

*Modelled:* the argument check, fitting and application of bias corrections in `ConformalizedModel.calibrate` and `__call__` (`Strata.v`): strata from selected features, unique rows, first matching row, medians, the extra row of zeros.

*Proof:* medians are characterised by counting and shift with the data; unique rows give one index per stratum, so the rows picked by an index are the samples of the stratum; trees by relating leaves.

*Extent:* Refuted for stratified corrections of outputs whose samples are not of shape (1,): calibration raises ValueError when stacking the medians with [[0.0]] (C74_two_outputs_refuted). Proved for stratified corrections of outputs of shape (1,) (C74_strata_centred_partial) and for global corrections of outputs of any shape (C74_global_centred). Real numbers, no NaN; the uncertainty estimate is not involved.

*Theorems:* `C74_strata_centred_partial`, `C74_global_centred`, `C74_continuous_refused`, `C74_two_outputs_refuted` (in `Props_Strata.v`)

### C75 Uncertainties are first-order error estimates (partial)

*Modelled:* `uncertainty_heuristic`, `parameter_sensitivity`, `input_sensitivity` and the accumulation over output leaves (`Uncertainty.v`): gradients are arguments, broadcasting, sums over trailing axes, the map over samples, counting, masks, interquartile ranges, normalisation, the column of distances.

*Proof:* sums over index tuples are related to row-major sums; the leaves of gradients, inputs and flags are put side by side in one tree; the three terms are added one after the other.

*Extent:* Proved when all output leaves have one shape, when outputs have rank 1 if distances are used, and when no input uncertainties are given (C75_formula_partial); the normalisations are as required (C75_normalisations). Refuted otherwise: output leaves of different shapes raise TypeError in tree_util.scalar_mul (C75_output_shapes_refuted); the column of distances is added to outputs that are single numbers (giving samples x samples numbers) or matrices (giving a sample the distance of another one) (C75_distance_refuted).

*Theorems:* `C75_formula_partial`, `C75_normalisations`, `C75_output_shapes_refuted`, `C75_distance_refuted` (in `Props_Uncertainty.v`)

### C76 Uncertainties of the inputs belong to their samples (partial)

*Modelled:* `uncertainty_heuristic`, `parameter_sensitivity`, `input_sensitivity` and the accumulation over output leaves (`Uncertainty.v`): gradients are arguments, broadcasting, sums over trailing axes, the map over samples, counting, masks, interquartile ranges, normalisation, the column of distances.

*Proof:* sums over index tuples are related to row-major sums; the leaves of gradients, inputs and flags are put side by side in one tree; the three terms are added one after the other.

*Extent:* Refuted: the input uncertainties keep their axis of samples while the gradients are mapped sample by sample, so the result has a wrong shape (C76_shape_refuted) or depends on the input uncertainties of other samples (C76_samples_refuted).

*Theorems:* `C76_shape_refuted`, `C76_samples_refuted` (in `Props_Uncertainty.v`)

### C77 Input sensitivity without continuous inputs (partial)

*Modelled:* `uncertainty_heuristic`, `parameter_sensitivity`, `input_sensitivity` and the accumulation over output leaves (`Uncertainty.v`): gradients are arguments, broadcasting, sums over trailing axes, the map over samples, counting, masks, interquartile ranges, normalisation, the column of distances.

*Proof:* sums over index tuples are related to row-major sums; the leaves of gradients, inputs and flags are put side by side in one tree; the three terms are added one after the other.

*Extent:* Refuted: 1.0 / 0 raises ZeroDivisionError (C77_division_by_zero_refuted); without any selected continuous input the term never succeeds (C77_nothing_selected).

*Theorems:* `C77_nothing_selected`, `C77_division_by_zero_refuted` (in `Props_Uncertainty.v`)

### C78 Shape comparisons (partial)

*Modelled:* `get_shapes`, `has_uniform_leaf_shapes`, `uniform_leaf_shapes_equal` and `shapes_equal` with all kinds of axes (`Shapes.v`).

*Proof:* Python indexing and slicing are characterised by positions; agreement is symmetric and transitive, so comparing with the first leaf compares all pairs.

*Extent:* The three characterisations are proved for all axes (slices without step). An answer is proved when the axes exist, except that uniform_leaf_shapes_equal raises IndexError for trees without leaves (C78_empty_refuted); a single leaf counts as uniform along an axis it does not have (C78_missing_axis_refuted).

*Theorems:* `C78_shapes_equal`, `C78_uniform`, `C78_uniform_equal`, `C78_answer_partial`, `C78_training`, `C78_empty_refuted`, `C78_missing_axis_refuted` (in `Props_Shapes.v`)

### C79 Distances are Gower distances (partial)

*Modelled:* the ranges, encoders, k-d tree and cutoff of `ConformalizedModel.calibrate`, `_prepare_data_for_kdtree` and `distance_sensitivity` (`Distance.v`); the k-d tree is a list of points queried exactly and refuses numbers that are not finite.

*Proof:* the L1 distance of concatenated rows is the sum over leaves; scaled one-hot codes of different seen categories are 1 apart; points of the tree are represented by training samples; quantiles, means and minima commute with the division by the number of features.

*Extent:* C79_gower_partial is Gower's distance when no category is new and selected categorical leaves have one number per sample; C79_any_category drops the first condition, a new category then counts one half. C79_refuted: with a new category the distance is not Gower's. The k-d tree is modelled as exact queries.

*Theorems:* `C79_gower_partial`, `C79_any_category`, `C79_refuted` (in `Props_Distance.v`)

### C80 Bounds of distances (partial)

*Modelled:* the ranges, encoders, k-d tree and cutoff of `ConformalizedModel.calibrate`, `_prepare_data_for_kdtree` and `distance_sensitivity` (`Distance.v`); the k-d tree is a list of points queried exactly and refuses numbers that are not finite.

*Proof:* the L1 distance of concatenated rows is the sum over leaves; scaled one-hot codes of different seen categories are 1 apart; points of the tree are represented by training samples; quantiles, means and minima commute with the division by the number of features.

*Extent:* C80_bounds; the last part is false: C80_training_samples_refuted gives a training sample with a positive distance, larger than that of a sample between training samples.

*Theorems:* `C80_bounds`, `C80_training_samples_refuted` (in `Props_Distance.v`)

### C81 Distances exist for all data (partial)

*Modelled:* the ranges, encoders, k-d tree and cutoff of `ConformalizedModel.calibrate`, `_prepare_data_for_kdtree` and `distance_sensitivity` (`Distance.v`); the k-d tree is a list of points queried exactly and refuses numbers that are not finite.

*Proof:* the L1 distance of concatenated rows is the sum over leaves; scaled one-hot codes of different seen categories are 1 apart; points of the tree are represented by training samples; quantiles, means and minima commute with the division by the number of features.

*Extent:* All three parts are false: C81_constant_feature_refuted (division by a zero range, ValueError from the k-d tree), C81_new_category_refuted (counts one half), C81_wide_category_refuted (shapes cannot be divided). C79_any_category states what new categories count in general.

*Theorems:* `C81_new_category_refuted`, `C81_constant_feature_refuted`, `C81_wide_category_refuted` (in `Props_Distance.v`)

### C82 Adam as published (partial)

*Modelled:* the arithmetic of `adam` and `complex_adam` and `make_schedule` (`Adam.v`) on top of the states of `Train.v`: arrays are lists of entries, complex numbers pairs, real arithmetic

*Proof:* the moments are weighted sums of the history (induction over the updates), which gives the published formula (`AdamSpec.v`: decaying averages written as sums); the bound on steps comes from the invariant m^2 (1-b2)(b2-b1^2) <= (1-b1)^2 b2 v of all reachable states, kept by one complete square; phases and real gradients by simulation entry by entry

*Extent:* Proved for successive updates of complex_adam with real parameters (C82_complex_adam_partial: all batches of the first epoch) and for adam trained with one batch per epoch (C82_adam_one_batch). False otherwise: adam keeps its counter within an epoch, so with several batches the bias corrections are those of the first update (C82_batches_refuted: a step of more than 1.3 times the learning rate for constant gradients); complex_adam is advanced by its updates and once more per epoch (C82_epochs_refuted).

*Theorems:* `C82_complex_adam_partial`, `C82_adam_one_batch`, `C82_average`, `C82_constant`, `C82_batches_refuted`, `C82_epochs_refuted` (in `Props_Adam.v`)

### C83 Optimizer steps are bounded (proved)

*Modelled:* the arithmetic of `adam` and `complex_adam` and `make_schedule` (`Adam.v`) on top of the states of `Train.v`: arrays are lists of entries, complex numbers pairs, real arithmetic

*Proof:* the moments are weighted sums of the history (induction over the updates), which gives the published formula (`AdamSpec.v`: decaying averages written as sums); the bound on steps comes from the invariant m^2 (1-b2)(b2-b1^2) <= (1-b1)^2 b2 v of all reachable states, kept by one complete square; phases and real gradients by simulation entry by entry

*Extent:* For both optimizers and for real and complex parameters, whatever the counter, so also where C82 fails. Real arithmetic.

*Theorems:* `C83_bounded`, `C83_bounded_complex`, `C83_usual`, `C83_first` (in `Props_Adam.v`)

### C84 Gradient clipping (partial)

*Modelled:* the arithmetic of `adam` and `complex_adam` and `make_schedule` (`Adam.v`) on top of the states of `Train.v`: arrays are lists of entries, complex numbers pairs, real arithmetic

*Proof:* the moments are weighted sums of the history (induction over the updates), which gives the published formula (`AdamSpec.v`: decaying averages written as sums); the bound on steps comes from the invariant m^2 (1-b2)(b2-b1^2) <= (1-b1)^2 b2 v of all reachable states, kept by one complete square; phases and real gradients by simulation entry by entry

*Extent:* Proved except for the last sentence, which is false: real and imaginary parts are clipped separately (C84_direction_refuted).

*Theorems:* `C84_clip`, `C84_clipped`, `C84_clipped_complex`, `C84_same_without`, `C84_direction_refuted` (in `Props_Adam.v`)

### C85 Complex parameters (partial)

*Modelled:* the arithmetic of `adam` and `complex_adam` and `make_schedule` (`Adam.v`) on top of the states of `Train.v`: arrays are lists of entries, complex numbers pairs, real arithmetic

*Proof:* the moments are weighted sums of the history (induction over the updates), which gives the published formula (`AdamSpec.v`: decaying averages written as sums); the bound on steps comes from the invariant m^2 (1-b2)(b2-b1^2) <= (1-b1)^2 b2 v of all reachable states, kept by one complete square; phases and real gradients by simulation entry by entry

*Extent:* Proved; the phase statement without clipping (C85_phase), with clipping it is false (C85_phase_clipped_refuted).

*Theorems:* `C85_real`, `C85_phase`, `C85_first`, `C85_phase_clipped_refuted` (in `Props_Adam.v`)

### C86 Gradients belong to their samples (partial)

*Modelled:* `grad_input` and `grad_params` (`Grad.v`) on top of `autobatch` of `Batch.v`: `vmap` over samples stacks gradients and states, `jacfwd`/`jacrev` are function arguments

*Proof:* the specification says what a derivative may depend on (`GradSpec.v`: values of the function; existence; row by row); the vectorised gradient of a model without arrays in its state is shown to be samplewise, so the theorem on batching applies; the extra axis of states by following a leaf through stacking

*Extent:* C86_input_rows (rows are derivatives of the single samples), C86_input_batching (states without arrays) and C86_params_batching (any samplewise model) hold; false for grad_input on models with arrays in their state (C86_input_state_refuted): vmap adds an axis to the state, so the second batch meets a state of the wrong shape. jacfwd/jacrev are parameters of the model (specified by of_values, derives, by_rows).

*Theorems:* `C86_input_rows`, `C86_input_batching`, `C86_params_batching`, `C86_input_state_refuted` (in `Props_Grad.v`)

### C87 Gradients return the state of the forward pass (partial)

*Modelled:* `grad_input` and `grad_params` (`Grad.v`) on top of `autobatch` of `Batch.v`: `vmap` over samples stacks gradients and states, `jacfwd`/`jacrev` are function arguments

*Proof:* the specification says what a derivative may depend on (`GradSpec.v`: values of the function; existence; row by row); the vectorised gradient of a model without arrays in its state is shown to be samplewise, so the theorem on batching applies; the extra axis of states by following a leaf through stacking

*Extent:* Holds for grad_params (C87_params, C87_params_batches). False for grad_input (C87_input_state_refuted; C87_input_axis and C87_input_never: always, for every array in the state): arrays come back with an additional leading axis of the number of samples.

*Theorems:* `C87_params`, `C87_params_batches`, `C87_input_axis`, `C87_input_never`, `C87_input_state_refuted` (in `Props_Grad.v`)

### C88 LinearNN is an affine map and an activation (proved)

*Modelled:* LinearNN (`Linear.v`): the list of modules built at the first compile, the compile loop of sequential models, set_params and the call, with the modules of `Reshape.v`, `MatMul.v` and `Layers.v`

*Proof:* the subscripts generated for this case are computed with symbolic sizes (`ab,cb->ca`), which gives acceptance as well as the values (`LinearSpec.v`: the sum written out); the trees around the array are handled by the theorems on Flatten

*Extent:* C88_affine (initial parameters), C88_parameters (set parameters; recompiling), C88_activation_found (loading recovers the activation), C88_one_array; C88_scalar_rejected shows the limit: samples without an axis are refused because Flatten announces a float. Real parameters; trees without None or empty tuples.

*Theorems:* `C88_affine`, `C88_parameters`, `C88_activation_found`, `C88_one_array`, `C88_scalar_rejected` (in `Props_Linear.v`)

### C89 LinearNN announces its output (partial)

*Modelled:* LinearNN (`Linear.v`): the list of modules built at the first compile, the compile loop of sequential models, set_params and the call, with the modules of `Reshape.v`, `MatMul.v` and `Layers.v`

*Proof:* the subscripts generated for this case are computed with symbolic sizes (`ab,cb->ca`), which gives acceptance as well as the values (`LinearSpec.v`: the sum written out); the trees around the array are handled by the theorems on Flatten

*Extent:* Holds for activations that keep the shape (C89_announced). False for GLU (C89_glu_refuted) and after changing out_features (C89_resized_refuted): compile reuses the old modules if the input shape is the same.

*Theorems:* `C89_announced`, `C89_glu_refuted`, `C89_resized_refuted` (in `Props_Linear.v`)

### C90 Serialised scalers come back (proved)

*Modelled:* saving and loading of scalers (`ScalerFile.v`): attributes, `serialize`, `deserialize` (the type checks of its arguments included), what `numpy.savez` makes of each python value and what `load` makes of it again

*Proof:* a relation between a scaler and its loaded version (numbers may have become arrays without axes, shapes arrays of numbers) that serialisation keeps by induction over the nesting, and that `transform` and `inverse_transform` cannot see.

*Extent:* C90_memory, for every scaler whose attributes can arise from fitting (proper); what a scaler does to one leaf is an arbitrary function that does not distinguish a number from an array without axes. Scalers that were never fitted are covered as well (C90_unfitted).

*Theorems:* `C90_memory`, `C90_unfitted` (in `Props_ScalerFile.v`)

### C91 Scalers saved to a file come back (partial)

*Modelled:* saving and loading of scalers (`ScalerFile.v`): attributes, `serialize`, `deserialize` (the type checks of its arguments included), what `numpy.savez` makes of each python value and what `load` makes of it again

*Proof:* a relation between a scaler and its loaded version (numbers may have become arrays without axes, shapes arrays of numbers) that serialisation keeps by induction over the nesting, and that `transform` and `inverse_transform` cannot see.

*Extent:* C91_file for scalers whose outermost structure is a dictionary or one array (nested structure arbitrary). False otherwise: C91_list_never and C91_file_refuted (list or tuple of arrays: loaded as one stacked array), C91_ragged_refuted (cannot be saved), C91_mixed_list_never and C91_mixed_refuted (list of scalers cannot be loaded), C91_tuple_refuted (tuple of scalers becomes a list), C91_bounds_never and C91_bounds_refuted (feature ranges given as arrays cannot be loaded). File format itself (npz, pickle) is trusted to return what was stored; dtypes are not modelled.

*Theorems:* `C91_file`, `C91_list_never`, `C91_mixed_list_never`, `C91_bounds_never`, `C91_array_in_list`, `C91_file_refuted`, `C91_ragged_refuted`, `C91_mixed_refuted`, `C91_bounds_refuted`, `C91_tuple_refuted` (in `Props_ScalerFile.v`)

### C92 Saved conformal models come back (partial)

*Modelled:* conformal models as objects (`ConfState.v`): all attributes, `calibrate` statement by statement as a program that changes them and may fail at any point, the calls, quantiles (with their cache), sensitivities, name, serialisation and files; the numerical work (sensitivities, k-d tree, quantiles, bounds, biases) are arguments

*Proof:* C92: an invariant of histories (the k-d tree and the encoder are functions of the stored training data, so that rebuilding them gives the same), and a relation between object and copy that every call preserves and cannot see; C93: execution up to the failing statement; C94: agreement of two objects on more and more attributes, stage by stage.

*Extent:* Proved in memory for all histories of successful calibrations and calls and all sequences of later calls (C92_memory), and through a file for all calls but the name (C92_file). False of the code through a file for the name, which becomes an array (C92_name_refuted), and after a failed calibration, when the model may still predict but its copy cannot be loaded (C92_failed_calibration_refuted). The numerical components are arguments (hypothesis fair).

*Theorems:* `C92_memory`, `C92_file`, `C92_name_refuted`, `C92_failed_calibration_refuted` (in `Props_ConfState.v`)

### C93 A rejected calibration changes nothing (partial)

*Modelled:* conformal models as objects (`ConfState.v`): all attributes, `calibrate` statement by statement as a program that changes them and may fail at any point, the calls, quantiles (with their cache), sensitivities, name, serialisation and files; the numerical work (sensitivities, k-d tree, quantiles, bounds, biases) are arguments

*Proof:* C92: an invariant of histories (the k-d tree and the encoder are functions of the stored training data, so that rebuilding them gives the same), and a relation between object and copy that every call preserves and cannot see; C93: execution up to the failing statement; C94: agreement of two objects on more and more attributes, stage by stage.

*Extent:* Proved for refusals because of shapes (C93_shapes) and of the structure of continuous (C93_mask). False of the code for later refusals: flags of the wrong structure make the model unusable (C93_refuted, in general C93_flags_break), training data without variation change its predictions (C93_changes_refuted).

*Theorems:* `C93_shapes`, `C93_mask`, `C93_flags_break`, `C93_refuted`, `C93_changes_refuted` (in `Props_ConfState.v`)

### C94 Calibration starts afresh (partial)

*Modelled:* conformal models as objects (`ConfState.v`): all attributes, `calibrate` statement by statement as a program that changes them and may fail at any point, the calls, quantiles (with their cache), sensitivities, name, serialisation and files; the numerical work (sensitivities, k-d tree, quantiles, bounds, biases) are arguments

*Proof:* C92: an invariant of histories (the k-d tree and the encoder are functions of the stored training data, so that rebuilding them gives the same), and a relation between object and copy that every call preserves and cannot see; C93: execution up to the failing statement; C94: agreement of two objects on more and more attributes, stage by stage.

*Extent:* Proved for scores, uncertainties and distances, and for predictions if no quantiles were asked for before (C94_fresh; the stale quantiles are C44), and for success itself (C94_success). The method input_sensitivity alone still answers with data of a previous calibration (C94_input_refuted).

*Theorems:* `C94_fresh`, `C94_success`, `C94_input_refuted` (in `Props_ConfState.v`)

### C95 Frozen modules keep their parameters in Model.train (partial)

*Modelled:* models as trees of modules and models (`Params.v`): `get_params`, `set_params` (calls one after the other until one fails), the `trainable` property and its setter, the flags given to training, `get_num_trainable_floats`; what a module itself does is an argument

*Proof:* induction over nested models; a predicate `parts` says which part of a tree of parameters belongs to which module; refutations run the model on modules with one number.

*Extent:* Proved if no nested model mixes frozen and trainable modules (C95_frozen_modules_kept_partial; true for flat models and for nested models frozen as a whole, C95_modules_unmixed, C95_freeze_unmixed). False of the code otherwise: a frozen module beside a trainable one in a nested model is trained (C95_refuted), because a model counts as trainable if any of its modules is (C95_trainable_means_any) and this one flag is used for all its parameters (C95_flags). The training itself is an argument that leaves arrays flagged False unchanged (C28). That training respects the flags is a hypothesis here; C117 has the loop itself.

*Theorems:* `C95_frozen_modules_kept_partial`, `C95_modules_unmixed`, `C95_freeze_unmixed`, `C95_trainable_means_any`, `C95_flags`, `C95_refuted` (in `Props_Params.v`)

### C96 Parameters are set as given or not at all (partial)

*Modelled:* models as trees of modules and models (`Params.v`): `get_params`, `set_params` (calls one after the other until one fails), the `trainable` property and its setter, the flags given to training, `get_num_trainable_floats`; what a module itself does is an argument

*Proof:* induction over nested models; a predicate `parts` says which part of a tree of parameters belongs to which module; refutations run the model on modules with one number.

*Extent:* C96_set_then_get_partial, C96_get_then_set, and refusal of trees that do not fit at the outermost level without any change (C96_misfits_refused). False of the code for refusals by a later module or inside a nested model: earlier modules keep the new values (C96_refuted). Missing in the positive part: nothing is said of modules that report something else than was set.

*Theorems:* `C96_set_then_get_partial`, `C96_get_then_set`, `C96_misfits_refused`, `C96_refuted` (in `Props_Params.v`)

### C97 The number of parameters does not depend on nesting (proved)

*Modelled:* models as trees of modules and models (`Params.v`): `get_params`, `set_params` (calls one after the other until one fails), the `trainable` property and its setter, the flags given to training, `get_num_trainable_floats`; what a module itself does is an argument

*Proof:* induction over nested models; a predicate `parts` says which part of a tree of parameters belongs to which module; refutations run the model on modules with one number.

*Extent:* C97_count_of_modules, C97_flat (undoing all nesting), C97_count_none_iff, C97_count_is_number_of_reals. Modules that define their own count are covered by the first three only.

*Theorems:* `C97_count_of_modules`, `C97_count_none_iff`, `C97_count_is_number_of_reals`, `C97_flat` (in `Props_Params.v`)

### C98 Compiled models accept exactly data of their shape (partial)

*Modelled:* `all_equal`, `all_close` and the check of the data in every call (`TreeEq.v`); shapes are trees of numbers, as jax sees tuples, so that the comparison is modelled on what it really compares

*Proof:* a loop over the leaves of trees of the same structure is a relation of trees; the encoding of shapes as tuples is injective except for empty tuples.

*Extent:* Acceptance of all data that fit (C98_accepts), the exact condition of acceptance and ValueError otherwise for trees without empty tuples (C98_exact_partial, C98_rejects). False of the code: arrays with different numbers of samples are accepted, as are a number without an axis of samples and an empty tuple when single numbers are expected (C98_refuted).

*Theorems:* `C98_accepts`, `C98_exact_partial`, `C98_rejects`, `C98_not_ready`, `C98_uneven_wf`, `C98_refuted` (in `Props_TreeEq.v`)

### C99 Comparison of trees answers correctly (partial)

*Modelled:* `all_equal`, `all_close` and the check of the data in every call (`TreeEq.v`); shapes are trees of numbers, as jax sees tuples, so that the comparison is modelled on what it really compares

*Proof:* a loop over the leaves of trees of the same structure is a relation of trees; the encoding of shapes as tuples is injective except for empty tuples.

*Extent:* Proved for trees of jax arrays (C99_equal_arrays_partial) and trees of other values (C99_equal_values), and for all_close if the shapes agree (C99_close_arrays_partial; C99_close_structure); C99_any states the reduction over the leaves. False otherwise: arrays of different shapes can be close or raise, values that are not arrays must be exactly equal, numpy arrays raise ValueError (C99_refuted). Exact numbers, no NaN.

*Theorems:* `C99_equal_arrays_partial`, `C99_equal_values`, `C99_close_arrays_partial`, `C99_close_structure`, `C99_refuted`, `C99_any` (in `Props_TreeEq.v`)

### C100 Compiled matrix modules run and give what they announce (partial)

*Modelled:* the five matrix modules from construction to use (`MatMods.v`): `compile` and `get_output_shape` on trees of shapes and the shapes in the callables, with constructors, `set_params` and hyper-parameters of `Modules.v`; entries of arrays are opaque

*Proof:* an inductive description of all histories of a module and the shape it was last compiled for (`MatModsSpec.v`), and per class an invariant that ties the shapes of the parameters to that shape.

*Extent:* Proved without restriction for AffineHermitianMatrix and AffineTensor (C100_hermitian_matrix, C100_tensor), and for the other three if set_params gets factors that count the same matrices (C100_low_rank_partial) or, after compile, observables of the same size (C100_sums_partial). False of the code otherwise: a low rank module accepts five weights and three vectors and compiles (C100_low_rank_refuted), a compiled sum accepts observables of any matrix size (C100_sum_refuted); both fail when called.

*Theorems:* `C100_hermitian_matrix`, `C100_tensor`, `C100_low_rank_partial`, `C100_sums_partial`, `C100_low_rank_refuted`, `C100_sum_refuted` (in `Props_MatMods.v`)

### C101 Stored matrices stay Hermitian and survive compilation (proved)

*Modelled:* the five matrix modules from construction to use (`MatMods.v`): `compile` and `get_output_shape` on trees of shapes and the shapes in the callables, with constructors, `set_params` and hyper-parameters of `Modules.v`; entries of arrays are opaque

*Proof:* an inductive description of all histories of a module and the shape it was last compiled for (`MatModsSpec.v`), and per class an invariant that ties the shapes of the parameters to that shape.

*Extent:* C101_hermitian and C101_observables_hermitian (drawn matrices are Hermitian by the symmetrisation in compile, an assumption on the draw here), C101_recompiled and C101_frozen_settings for all five classes. Arrays are opaque: Hermitian means passing np.allclose.

*Theorems:* `C101_hermitian`, `C101_observables_hermitian`, `C101_recompiled`, `C101_frozen_settings` (in `Props_MatMods.v`)

### C102 Training starts from the current parameters (partial)

*Modelled:* `Model.train` around the training loop of `Train.v` (`TrainModel.v`): which optimiser states are handed over, what is stored afterwards, and all other methods that touch parameters, flags, states or the optimiser state

*Proof:* an invariant of histories (the optimiser state holds the parameters of the model) that everything but `set_params` keeps; the refutation trains the small model of `Props_Train.v`.

*Extent:* Proved for trainings that are not resumed (C102_fresh, C102_fresh_forgets), for resumed ones if no parameters were set since the last training (C102_resumed_partial), for the optimiser state that a fresh training starts with (C102_fresh_optimiser), and for the refusal without an earlier training (C102_nothing_to_resume); C102_no_epochs is the visible consequence. False of the code otherwise: set_params leaves the optimiser state alone, and resuming brings its parameters back (C102_refuted). Modules are taken to accept the trained parameters (see C96).

*Theorems:* `C102_fresh`, `C102_fresh_optimiser`, `C102_fresh_forgets`, `C102_nothing_to_resume`, `C102_resumed_partial`, `C102_no_epochs`, `C102_refuted` (in `Props_TrainModel.v`)

### C103 Models share modules only by using the same objects (partial)

*Modelled:* models as trees of references into a heap of module objects (`Share.v`): get/set_params, train, compile, trainable flag and copy, with the effects in the order of the tree

*Proof:* frame lemmas (a method changes only the references it reaches), a simulation of the value model of `Params.v` for models without repeated references, and induction on the model for tied parameters.

*Extent:* Proved: disjoint models never influence each other (C103_other_models), models without repeated modules behave as in the model without references, so C95 and C96 apply (C103_unshared), flags (C103_freeze), set then get if a repeated module gets the same parameters in all its places (C103_set_then_get_partial), and that a module always ends up with one of the parts meant for it (C103_some_part). False for a module object that occurs twice: set_params and train silently keep one part only, get_params returns something else (C103_refuted).

*Theorems:* `C103_other_models`, `C103_unshared`, `C103_freeze`, `C103_set_then_get_partial`, `C103_some_part`, `C103_refuted` (in `Props_Share.v`)

### C104 Copies of models are independent and behave like the original (partial)

*Modelled:* copying by serialising and restoring (`hcopy` in `Share.v`): every occurrence of a module becomes a new object

*Proof:* induction on the model with the counter of references; independence follows from the frame lemmas of C103.

*Extent:* Proved for all models: structure, contents and independence of the copy (C104_copy, C104_independent). Same behaviour for models in which no module occurs twice (C104_behaves_partial, for set_params followed by get_params). False otherwise: the copy has two separate modules where the original has one (C104_refuted).

*Theorems:* `C104_copy`, `C104_independent`, `C104_refuted`, `C104_behaves_partial` (in `Props_Share.v`)

### C105 Conformal models do not influence each other (partial)

*Modelled:* several conformal models whose dictionaries of quantiles are kept by reference (`ConfShare.v`), on top of `Conformal.v`

*Proof:* an invariant (no two models have the same dictionary) and a projection of the actions on each model; the refutation reduces to the stale quantiles of C44.

*Extent:* Proved as long as models are constructed or loaded from files (C105_own_history_partial, C105_separate, C105_reloaded). False for models restored in memory by deserialize(serialize()): the dictionary of quantiles is shared, and the original answers with quantiles of the scores of the copy (C105_refuted, C105_always_refuted).

*Theorems:* `C105_own_history_partial`, `C105_separate`, `C105_reloaded`, `C105_refuted`, `C105_always_refuted` (in `Props_ConfShare.v`)

### C106 Compiling a sequential model compiles every module for what it gets (partial)

*Modelled:* `compile` of sequential models on the heap of `Share.v`

*Proof:* mutual inductive specification of the chain of shapes and keys; induction on the model, with the frame lemma showing that later modules do not touch earlier ones.

*Extent:* Proved for models in which no module object occurs twice, in both directions, with the check of the output shape of every model (C106_compiled_partial, C106_compiles). False otherwise: a module that occurs twice is compiled twice and keeps only what the second time stored (C106_refuted; e.g. the shape kept by Flatten).

*Theorems:* `C106_compiled_partial`, `C106_compiles`, `C106_refuted` (in `Props_ShareCompile.v`)

### C107 The progress line shows the latest text and nothing else (partial)

*Modelled:* the progress bar function by function with rational numbers and the text it writes (`Progress.v`), and a terminal line with carriage return and line feed

*Proof:* invariant: the line is blank behind the longest text the bar remembers; induction on the calls.

*Extent:* Proved for all sequences of calls in which a bar is started or reset only on a blank line (C107_update_partial, C107_end_partial, C107_nothing). False otherwise: start forgets the length of the line, so train, which starts a bar for every epoch in the same line, leaves remnants (C107_refuted), and so does a new bar after a longer line (C107_reset_refuted).

*Theorems:* `C107_update_partial`, `C107_end_partial`, `C107_nothing`, `C107_epochs_reach`, `C107_refuted`, `C107_reset_refuted` (in `Props_Progress.v`)

### C108 The progress bar never goes back and predicts the time that is left (partial)

*Modelled:* the same

*Proof:* the last filled place is an index of the reachable states; arithmetic of rational numbers and their floor.

*Extent:* Proved: the bar never goes back (C108_never_back), the number of filled places (part of C107_update_partial) and the seconds once there is some progress (C108_seconds_partial). False before: while the progress is 0 the seconds shown are negative (C108_refuted).

*Theorems:* `C108_never_back`, `C108_seconds_partial`, `C108_refuted` (in `Props_Progress.v`)

### C109 What a calibrated conformal model answers follows from the last calibration (partial)

*Modelled:* the object of `ConfState.v` with all numerical functions as parameters

*Proof:* a derived state: after each stage of calibrate the attributes are related to the facts of the specification; answers are then compared term by term.

*Extent:* Uncertainties, predictions and intervals after a calibration are characterised (iff) by a specification over the arguments of that calibration alone, which does not mention the object; the one-hot encoding of the distances is exactly that of the categorical selected features. Refuted: with the parameter term switched off for a model whose parameters are a container, parameter_sensitivity raises an exception or answers with the size of an earlier calibration. Intervals: only if no quantile was asked for before (the stale quantiles are C44). Missing: the numerical functions are parameters.

*Theorems:* `C109_uncertainty`, `C109_answers_partial`, `C109_encoding`, `C109_nothing`, `C109_uncalibrated`, `C109_distance_off`, `C109_input_off_partial`, `C109_off_refuted`, `C109_off_stale_refuted` (in `Props_ConfCal.v`)

### C110 A compiled Einsum or MatMul module can be called (partial)

*Modelled:* `EinsumObj.v`: the attributes of an Einsum module, compile with its effect also when it fails, call; `MatMul.v` for MatMul

*Proof:* a successful compile yields a map from letters to sizes that fits parameters and data; numpy's rule for einsum (`np_einsum_acc`) then accepts every batch. For MatMul the letters are those of its own notation, and the sizes of the result are compared with output_shape.

*Extent:* Proved for all five notations with one string per array and, where the output is written, distinct letters that occur in the operands (C110_einsum_runs), for MatMul incl. output_shape with at most 25 operands (C110_matmul_runs), compiling again with at most one array of parameters (C110_compile_again). False: an output letter that occurs nowhere else or twice is accepted by compile and fails when called (C110_output_refuted, C110_repeated_refuted); a failed compile leaves the module ready (C110_ready_refuted) and bound to the wrong shapes (C110_retry_refuted); compiling again fails if several parameter arrays were drawn (C110_again_refuted).

*Theorems:* `C110_einsum_runs`, `C110_compile_again`, `C110_matmul_runs`, `C110_output_refuted`, `C110_repeated_refuted`, `C110_ready_after`, `C110_ready_refuted`, `C110_retry_refuted`, `C110_again_refuted` (in `Props_EinsumRun.v`)

### C111 A composite module compiles exactly when its arguments fit the data (partial)

*Modelled:* `Composite.v` as for C55

*Proof:* each stage of the pipeline is shown equivalent to a condition on the arguments, which are combined; an invariant of the history says that the modules are those built from the arguments, compiled as far as the last attempt for the stored shape got, and that trying again gives the same.

*Extent:* Proved in both directions for bare arrays and all histories of compile calls (C111_accepted_iff). False for a single array inside a dictionary: with all eigenvalues (num_eig None) compile of AffineEigenvaluePMM raises KeyError (C111_tree_refuted). The size is never taken from the matrices by AffineEigenvaluePMM (C111_size_needed).

*Theorems:* `C111_accepted_iff`, `C111_tree_refuted`, `C111_size_needed` (in `Props_CompAccept.v`)

### C112 The reported number of trainable floats is the number of degrees of freedom (partial)

*Modelled:* `Dof.v`: set_params and get_num_trainable_floats of the matrix modules on arrays with entries in a field, and the shapes and dtypes that compile draws

*Proof:* the exchange of two axes is an involution of the positions; entries paired by conjugation along an involution have one coordinate per position (real part or imaginary part, 2 being invertible); products of sets add up. That the number of coordinates is unique is the theorem that a homogeneous system with more unknowns than equations has a solution that is not zero.

*Extent:* Proved for modules with parameters of the dtypes that compile draws (C112_compiled, C112_count_partial) and for models made of such modules (C112_model); the number is well defined (C112_unique). False if matrices of a real dtype are supplied: a real symmetric matrix of size two has three degrees of freedom, four are reported (C112_real_refuted). Exact arithmetic; the test for Hermitian matrices is equality instead of np.allclose.

*Theorems:* `C112_unique`, `C112_count_partial`, `C112_compiled`, `C112_model`, `C112_real_refuted` (in `Props_Dof.v`)

### C113 The intervals of a calibrated ConformalizedModel have the documented coverage (partial)

*Modelled:* `Cover.v`: calibrate and __call__ from samples (prediction, sensitivities before normalisation, target) to the interval, composed of the functions of `Conformal.v`, `Strata.v` and `Uncertainty.v`; one output number

*Proof:* quantiles commute with positive factors, so with one term the normalisation cancels and the guarantee is that of C42; with strata, the row stored for the code of a sample is the median of the samples with the same features (CoverStrata.v); for the calibration samples the quantile is at least the score of the promised rank; the failures are three samples each, where all leave-one-out intervals are bounded by hand (median, MAD and quantile of two numbers).

*Extent:* Refuted as documented: C113_bias_refuted and C113_terms_refuted give three samples of which one instead of two is covered, C113_refuted negates the general statement. C113_one_term_partial is the guarantee for one term without bias correction and without weights (also that every sample gets an interval), C113_interval the exact interval with one term, without correction or with a global or stratified one. What holds with any number of terms and any correction is the coverage of the calibration samples themselves (C113_calibration_data). Missing: the exact class of calibrations for which the guarantee holds; uncertain labels; more than one output.

*Theorems:* `C113_one_term_partial`, `C113_interval`, `C113_calibration_data`, `C113_bias_refuted`, `C113_terms_refuted`, `C113_refuted`, `C113_one_term_refuted` (in `Props_Cover.v`)

### C114 Modules are read and replaced by path (partial)

*Modelled:* `__getitem__`, `__setitem__` and readiness on nested values with models inside (`Access.v`).

*Proof:* places (lists of positions) as specification; induction on the path with a lemma that a change through one key is a replacement in one place.

*Extent:* Proved: reading (C114_read), what an accepted assignment changes and that nothing else does (C114_write, C114_elsewhere), refused assignments (C114_refused), the exact condition of acceptance (C114_accepted_iff), that the outermost model and a model directly above the place are reset (C114_outermost, C114_parent). False of the code: every other model on the path stays compiled (C114_reset_refuted, always: C114_kept), and paths as reported by jax never lead anywhere (C114_jax_paths_never) while assigning with one adds an entry (C114_jax_paths_added). Slices and objects that occur twice are left out.

*Theorems:* `C114_read`, `C114_write`, `C114_elsewhere`, `C114_refused`, `C114_accepted_iff`, `C114_outermost`, `C114_parent`, `C114_kept`, `C114_reset_refuted`, `C114_jax_paths_never`, `C114_jax_paths_added` (in `Props_Access.v`)

### C115 A model that is not ready says why (partial)

*Modelled:* `__getitem__`, `__setitem__` and readiness on nested values with models inside (`Access.v`).

*Proof:* places (lists of positions) as specification; induction on the path with a lemma that a change through one key is a replacement in one place.

*Extent:* Proved for models that use is_ready of the base class (C115_ready_iff, C115_reason, C115_unknown_iff). Graph models override is_ready but not the reasons: without an execution order the reason can be unknown (C115_graph_refuted); with one it never is (C115_graph_partial), though it may name modules that are not needed.

*Theorems:* `C115_ready_iff`, `C115_reason`, `C115_unknown_iff`, `C115_graph_refuted`, `C115_graph_partial` (in `Props_Access.v`)

### C116 Texts of models show their modules (partial)

*Modelled:* `strfmt_pytree` and the `__repr__` methods as functions to strings (`Show.v`).

*Proof:* lines without indentation as specification; splitting a concatenation at line breaks, induction on the tree.

*Extent:* Proved: the contents (C116_content, C116_model, C116_graph) for keys without line breaks and indentation by spaces; the limit for max_leaf_chars >= 3 (C116_limit_partial); alignment of the outermost container (C116_outermost); matching parentheses of modules that are not frozen (C116_balanced_partial). False of the code: limits below 3 make lines longer than the limit (C116_limit_refuted, always: C116_small_limit_never), closing brackets of nested containers stand too far to the right (C116_aligned_refuted, always: C116_nested_never), and the text of a frozen module has a parenthesis too many (C116_balanced_refuted, always: C116_frozen_never).

*Theorems:* `C116_content`, `C116_limit_partial`, `C116_small_limit_never`, `C116_limit_refuted`, `C116_outermost`, `C116_nested_never`, `C116_aligned_refuted`, `C116_model`, `C116_graph`, `C116_balanced_partial`, `C116_frozen_never`, `C116_balanced_refuted` (in `Props_Show.v`)

### C117 Fine-tuning: saving and loading does not disturb training, and frozen modules stay as they are (partial)

*Modelled:* models as trees of modules and models with optimiser states, `train` with `resume`, `serialize` and `deserialize` of modules, parameters and optimiser states, sequences of these (`FineTune.v`, on top of `Params.v` and `Train.v`).

*Proof:* the loop keeps the number of arrays and the frozen ones (C28), so the new optimiser states have the structure of the old ones and agree with the parameters that are set; loading rebuilds the same optimiser states from their leaves; induction on the sequence. The hypotheses about single modules (a file gives the module back, set_params of get_params changes nothing) are what C36 and C37 are about.

*Extent:* Proved: saving and loading gives the same model with optimiser states (C117_reload) and is invisible for everything that follows (C117_transparent); after a training the optimiser states are those of the parameters set (C117_trained_in_order); frozen modules keep their parameters through whole histories (C117_frozen_partial). Missing in the latter: nested models that mix frozen and trainable modules (C95) and parameters set by hand, for which it is false of the code (C117_refuted). Assumed of single modules: a file gives them back and they accept their own parameters.

*Theorems:* `C117_reload`, `C117_transparent`, `C117_frozen_partial`, `C117_trained_in_order`, `C117_refuted` (in `Props_FineTune.v`)

### C118 Module classes are checked when they are defined (partial)

*Modelled:* classes as lists of bodies, `inspect.isabstract`, attribute lookup and `__init_subclass__` (`Subclass.v`); whether a string is a version is an argument.

*Proof:* the abstract methods computed along the bases are those that are found abstract by lookup; specification of calls with one positional argument.

*Extent:* Proved: C118_checked, C118_accepted, C118_abstract; run-time type checks for methods of classes that are not abstract (C118_typed_partial). False of the code: methods inherited from abstract classes are not type checked (C118_refuted); constructors whose first parameter is not called self (C118_names_refuted).

*Theorems:* `C118_checked`, `C118_accepted`, `C118_abstract`, `C118_typed_partial`, `C118_refuted`, `C118_names_refuted` (in `Props_Subclass.v`)

### C119 What is saved under a name is loaded under that name (partial)

*Modelled:* a directory as a function from names to contents; the handling of names in the three pairs of save and load methods and in numpy (`Files.v`).

*Proof:* case distinction on the suffix.

*Extent:* Proved for strings (models and scalers) and for all names ending in .npz (C119_found_partial, C119_separate), and that one file is written (C119_one_file). False of the code for all other names (C119_refuted, in general C119_lost). File objects are not modelled.

*Theorems:* `C119_found_partial`, `C119_one_file`, `C119_lost`, `C119_separate`, `C119_refuted` (in `Props_Files.v`)

### C120 Files of other versions (partial)

*Modelled:* `BaseModule.deserialize` and `Model.deserialize` as far as versions are concerned, with `upgrade` and the setting of the entries as arguments, and `ConformalizedModel.deserialize` up to the wrapped model (`Versions.v`).

*Proof:* induction on the saved data; the versions noted at any depth and the rewriting of old data are inductive predicates.

*Extent:* Proved except for the last sentence (C120_strict, C120_upgraded, C120_not_upgraded, C120_upgrade_fails), which is false of the code (C120_refuted). For a conformal model only its own package version is looked at (C120_conformal); that is enough if all noted versions are the same, as in files written by serialize (C120_conformal_partial), and not otherwise (C120_conformal_refuted).

*Theorems:* `C120_strict`, `C120_upgraded`, `C120_not_upgraded`, `C120_upgrade_fails`, `C120_conformal`, `C120_conformal_partial`, `C120_refuted`, `C120_conformal_refuted` (in `Props_Versions.v`)

### C121 A precision that is set lasts (partial)

*Modelled:* `set_precision` as an operation on the models of `TrainModel.v`, with the arrays of `Precision.v` (`PrecTrain.v`).

*Proof:* whatever optimiser and callback keep for every parameter, the training loop keeps (induction along the loop); invariant over sequences of operations: the parameters have the precision, and so have the optimiser states once they have been made anew.

*Extent:* Proved for everything but training resumed with older optimiser states (C121_set, C121_lasts, C121_lasts_partial), for which it is false (C121_refuted, always: C121_comes_back). Optimiser and callback are assumed to keep the precision of arrays.

*Theorems:* `C121_set`, `C121_lasts`, `C121_lasts_partial`, `C121_comes_back`, `C121_refuted` (in `Props_PrecTrain.v`)

### C122 Gradients are taken in a direction that fits (partial)

*Modelled:* the choice of the direction in `grad_input`, `grad_params` and `train`, with the two stored functions, and the rules of jax about real and complex numbers (`Modes.v`).

*Proof:* case distinctions; for sequences of gradients the stored direction is an invariant. The numbers of entries and the conditions of jax are specified separately (`ModesSpec.v`).

*Extent:* Training proved (C122_train). Direction proved for vectors (C122_direction_partial), existence for real numbers (C122_real_partial) and for a first gradient with a direction (C122_asked). False of the code otherwise (C122_direction_refuted, C122_refuted, in general C122_stuck).

*Theorems:* `C122_direction_partial`, `C122_asked`, `C122_real_partial`, `C122_stuck`, `C122_recover`, `C122_train`, `C122_direction_refuted`, `C122_refuted` (in `Props_Modes.v`)

### C123 Initial parameters are drawn independently (partial)

*Modelled:* the keys that `compile` of every class hands to `jax.random.normal`, and how `compile` of sequential and graph models splits them (`Draws.v`); a key is the path of splits that led to it

*Proof:* two keys below different children of a key are unrelated; induction over nested models. The other claims follow the loop of `SequentialModel.compile`, which splits once per module whatever the module does with its key.

*Extent:* Proved for all classes and nestings: independence (C123_independent, C123_own_key, C123_different for the keys themselves), and that parameters of a module of a sequential model do not depend on later modules (C123_later) or on what other modules were given (C123_others). The sizes of real and imaginary parts agree (C123_size_partial) except for a complex AffineTensor, where their mean squares are 3/2 and 1/2 (C123_size_refuted). Keys are paths of splits; a module object used twice is not considered.

*Theorems:* `C123_independent`, `C123_own_key`, `C123_different`, `C123_later`, `C123_others`, `C123_size_partial`, `C123_size_refuted` (in `Props_Draws.v`)

### C124 Every training step has random numbers of its own (partial)

*Modelled:* the training loop of `Train.v` with paths as keys and a model that notes its keys; the keys of modules in nested sequential models (`TrainKeys.v`)

*Proof:* invariant of the loop: after n steps the key is the n-fold first child of the initial one, and the noted keys are the second children on the way; keys inside modules are below the key of the call.

*Extent:* Proved for the training steps and the returned key (C124_steps) and for the modules inside sequential models (C124_modules; graph models give all modules the same key, C20). False for validation: it uses the key from which the next training keys are split (C124_validation), so that in [a, [b, c]] the module b gets in the first validation the key of a in the first training step (C124_validation_refuted).

*Theorems:* `C124_steps`, `C124_modules`, `C124_validation`, `C124_validation_refuted` (in `Props_TrainKeys.v`)

### C125 Interrupting a training (partial)

*Modelled:* the handler of both signals as a state of the process; `GracefulKiller` and what `_train` does with it when it is traced and when its loop runs (`Signals.v`)

*Proof:* induction over the epochs and over the history of the process; after tracing the killer is inactive, which is an invariant of everything but the next verbose training.

*Extent:* Proved: the first signal ends a verbose training after its epoch (C125_first), an undisturbed one is complete whatever happened before (C125_undisturbed), signals keep their meaning exactly as long as no verbose training was started in the main thread (C125_default_iff). False: a second signal during the loop (C125_second_refuted, C125_second_never; it works during tracing, C125_second_tracing_partial), signals after a verbose training (C125_after_refuted, C125_after_never, C125_later_quiet_never), verbose trainings outside the main thread (C125_thread_refuted). Assumed: that a handler called during the loop is called before the next loop condition.

*Theorems:* `C125_first`, `C125_undisturbed`, `C125_second_refuted`, `C125_second_never`, `C125_second_tracing_partial`, `C125_default_iff`, `C125_quiet_partial`, `C125_after_never`, `C125_later_quiet_never`, `C125_after_refuted`, `C125_thread_refuted` (in `Props_Signals.v`)

### C126 The announced shape of a function module (partial)

*Modelled:* `FuncBase` for an arbitrary function on trees of arrays (`FuncMod.v`); functions that treat samples on their own (`FuncModSpec.v`)

*Proof:* the trial input has the shapes of any single sample, and a sample of the output is the output of the sample.

*Extent:* Proved for functions that treat every sample on its own and whose output shapes depend on the input shapes (C126_shapes_partial, C126_compile, C126_error; closed under composition: C126_after). False in general: squeeze (C126_squeeze_refuted), sums over the samples (C126_mixing_refuted). Not modelled: types of numbers.

*Theorems:* `C126_shapes_partial`, `C126_compile`, `C126_error`, `C126_after`, `C126_entries`, `C126_first`, `C126_squeeze_refuted`, `C126_mixing_refuted` (in `Props_FuncMod.v`)

### C127 Models inside models are compiled for what they get (partial)

*Modelled:* models in models with the shapes they note, `compile` and `get_output_shape` of sequential and graph models (`Recompile.v`)

*Proof:* induction over the nesting; a model that is compiled right throughout announces what it gives, so that asking before or after compiling makes no difference unless something was compiled before.

*Extent:* Proved for models in which graph models contain no ready models, unless ready as they should be (C127_compile_partial), in particular for models of sequential models only (C127_sequential) and for models compiled any number of times from scratch (C127_again); get_output_shape of models that are not compiled (C127_asked_partial). False: a compiled sequential model inside a graph model (C127_refuted, C127_announced_refuted); get_output_shape of a compiled model for another shape (C127_asked_refuted). Graph models are chains here (their wiring: C12, C16).

*Theorems:* `C127_compile_partial`, `C127_sequential`, `C127_again`, `C127_asked_partial`, `C127_asked_compiled`, `C127_refuted`, `C127_announced_refuted`, `C127_asked_refuted` (in `Props_Recompile.v`)

### C128 A callback that keeps the parameters within a set (partial)

*Modelled:* Train.v: after_epoch (the callback and the counters), epoch_body (the checkpoint is taken before), train_loop. The callback is an arbitrary function of key, epoch and the flat list of parameters.

*Proof:* Induction over the history of epochs of TrainProofs (train_spec): the state behind each epoch has the parameters the callback returned, hence every later epoch starts with them; the checkpoint is the state before. C128_last is an induction over the epoch loop that compares two callbacks: with the last epoch the loop ends and the state in which they differ is not part of the result. The witnesses use the small losses of Props_Train and a callback that cuts off at -5.

*Extent:* C128_partial: for every set that the callback enforces, every loss, data and settings: what is returned are the initial parameters or those at the end of an epoch that started within the set (and whose callback answer, which the next epoch starts with, is in the set), and the reported validation loss is the loss of exactly the returned parameters. C128_last: two callbacks that agree on all epochs but the last allowed one give the same result; with one epoch the callback has no effect. C128_refuted: the returned parameters need not be in the set. C128_steps_refuted: neither are the parameters that training steps get ('called after each training step' in the documentation).

*Theorems:* `C128_partial`, `C128_last`, `C128_refuted`, `C128_steps_refuted` (in `Props_Callback.v`)

### C129 A model inside a model is its modules in place (proved)

*Modelled:* Nested.v: the callable of a model whose modules are models, by seq_callable of Seq.v with itself as callable of the modules (the depth of nesting is the fuel).

*Proof:* Induction over the depth and the list of modules: both sides are equivalent to running the innermost modules one after the other (seq_ran of ChainProofs); runs can be cut and joined, and new states are put back where the old ones were. "Written out" is a relation of its own (NestedSpec.v).

*Extent:* C129_in_place, both directions, for nestings of any depth; the modules of each model are a list (other containers do not matter, C17_nesting_irrelevant) and the innermost modules are arbitrary, e.g. graph models. C129_keys: with arbitrary modules the same but for the keys. C129_random_refuted shows that the restriction to modules without randomness is needed. Assumes that jax.random.split returns as many keys as asked for.

*Theorems:* `C129_in_place`, `C129_keys`, `C129_random_refuted` (in `Props_Nested.v`)

### C130 Every epoch is shuffled anew (partial)

*Modelled:* Train.v (epoch_work: two splits of batch_rng per epoch; shuffle) with the keys of TrainKeys.v (paths of splits).

*Proof:* Induction over the history of epochs (train_spec): before epoch i the key is batch_rng split 2 i times; the keys split off are those of a chain, which Props_TrainKeys shows to be independent. Same seed: the chain of the model starts with the first key of the split, the chain of batch_rng itself, so that they meet.

*Extent:* C130_shuffles: in all runs, the i-th epoch shuffles with two keys given explicitly (spec: train_key, val_key), and these are independent over all epochs, for callbacks that leave the key alone. C130_apart_partial: independent of the keys of the training steps if batch_rng and the key of the model are unrelated. C130_same_seed_refuted: not if both are the same; C130_same_seed: then every second training step of the run uses a key of a shuffle. Keys are paths of splits; that jax's keys at different paths differ is assumed as in C123.

*Theorems:* `C130_shuffles`, `C130_apart_partial`, `C130_same_seed_refuted`, `C130_same_seed` (in `Props_Shuffle.v`)

### C131 Editing a graph model does not rewire it (partial)

*Modelled:* Edit.v (the edits, C33) and NonSeq.v/Connections.v (compilation and call of a graph model, C12).

*Proof:* GraphEdit.v: the compiled network depends on the modules only through what the written paths find (partition_seen, compiled_seen); an edit of a dictionary changes one entry (dict_edit), appending to a list changes no position. Refuted by computing the modules called before and after.

*Extent:* Proved for modules in a dictionary (all edits; C131_unmentioned_partial, C131_taken_away) and for modules appended to a list whose entries hold modules (C131_appended_partial); refuted for modules inserted into or taken from a list (C131_inserted_refuted, C131_popped_refuted).

*Theorems:* `C131_unmentioned_partial`, `C131_taken_away`, `C131_appended_partial`, `C131_inserted_refuted`, `C131_popped_refuted` (in `Props_GraphEdit.v`)

### C132 A mixed scaler scales each part by its own data (partial)

*Modelled:* ScalerShare.v: scaler objects on a heap; fit writes the statistics into the objects the tree refers to, in the order of sorted keys; the scalers other than mixed ones are arguments.

*Proof:* ScalerShareSpec.v says where each object is used; ScalerShareMain.v: fit changes only objects placed in the fitted scaler (fit_local), and an object with one place ends with the statistics of that part (fit_stats); run_places and run_ok for the calls. Refuted by computation; C132_shared_never gives the outcome for two keys.

*Extent:* Proved if every scaler object is used in one place (C132_own_data_partial) and for fits of scalers with no object in common (C132_others); a scaler that is not fitted is an error (C132_unfitted); refuted for an object that is used twice (C132_shared_refuted, C132_common_refuted), where C132_shared_never says what happens.

*Theorems:* `C132_own_data_partial`, `C132_unfitted`, `C132_others`, `C132_shared_never`, `C132_shared_refuted`, `C132_common_refuted` (in `Props_ScalerShare.v`)

### C133 Every module name that a graph model accepts can be used (partial)

*Modelled:* NonSeqNames.v: the constructor and the call of a graph model with one module under a given name, on top of NonSeq.v.

*Proof:* NamedProofs.v evaluates the model step by step (partition, outer connections, execution order, placement of the outputs, call) for every name without separator; with the separator: no part of the name is a key of the modules, so the partition of the connections fails; the cases together give the characterisation.

*Extent:* Exactly which accepted names work (C133_works_iff): those that are not empty, have no separator and do not begin with "output" (C133_name). Refuted for the other accepted names: one with the separator never runs (C133_separator), one that begins with "output", like "output_layer", gives a dictionary of the input and output of the module (C133_output_names, C133_output_layer_refuted), the empty one does not compile (C133_empty); all for every such name. The constructor refuses the reserved names (C133_reserved), append_module does not (C133_added_refuted). Models with one module.

*Theorems:* `C133_name`, `C133_output_names`, `C133_separator`, `C133_empty`, `C133_works_iff`, `C133_output_layer_refuted`, `C133_reserved`, `C133_added_refuted` (in `Props_Names.v`)

### C134 Calibration warns about a feature exactly if it looks different from what was said (partial)

*Modelled:* Sanity.v: the block of calibrate behind skip_sanity_checks; the order that jax.random.permutation gives, MAX_N and MAX_K are arguments.

*Proof:* a shuffled list has the same different rows; the number of unique rows is the length of any list without repetitions that has the same members; jax.tree.map and jax.tree.all over pairs of leaves.

*Extent:* The check is characterised for at most MAX_N samples with at most MAX_K entries along the first axis (C134_warns_iff_partial), and for data without equal samples for any number above ten (C134_all_different). Refuted: at most ten samples always warn (C134_few, C134_few_refuted), samples that differ only behind the first MAX_K entries count as equal (C134_wide, C134_wide_refuted), leaves with one number per sample fail (C134_scalars, C134_scalars_refuted). Missing: more than MAX_N samples with repetitions, where the answer depends on the random choice.

*Theorems:* `C134_warns_iff_partial`, `C134_all_different`, `C134_few`, `C134_few_refuted`, `C134_wide`, `C134_wide_refuted`, `C134_scalars`, `C134_scalars_refuted` (in `Props_Sanity.v`)

### C135 The outputs of a compiled model have an axis besides the samples (partial)

*Modelled:* Axes.v: the check `len(output_shape) < 1` on top of the shapes of `Seq.v` and `NonSeq.v`.

*Proof:* the theorems of C16 carry the announced shape over to the data; the length of a shape is analysed by kind of container.

*Extent:* Proved for outputs that are one array, and that containers are not empty (C135_sequential_partial, C135_graph_partial; the check rejects nothing else, C135_accepted). False for arrays in containers: len() of a container counts its entries, so {"a": ()} passes, e.g. in every graph model that writes to output.a (C135_refuted).

*Theorems:* `C135_sequential_partial`, `C135_graph_partial`, `C135_accepted`, `C135_refuted` (in `Props_Axes.v`)

### C136 Rewiring one graph model leaves the others as they are (partial)

*Modelled:* Wire.v: dictionary objects and the graph models that refer to them; construction, copy, save and load, assignment and edits in place of the connections.

*Proof:* in a careful program (no copies, each dictionary handed over once; a condition on the text of the program) all models refer to different objects, by induction on the program; the sharing of copies is proved for every continuation that assigns neither attribute.

*Extent:* False of the code: copy() shares the connections dictionary (C136_refuted, C136_copies_share) and so do models built from one dictionary (C136_constructor_refuted). Proved for programs without copies that hand each dictionary over once (C136_partial), and for all operations but edits in place in every program (C136_other_operations). Lists inside the dictionary are treated as values; models are taken to be ready when copied or saved.

*Theorems:* `C136_partial`, `C136_other_operations`, `C136_copies_share`, `C136_refuted`, `C136_constructor_refuted` (in `Props_Wire.v`)

### C137 The state of a model is put back where it was taken (partial)

*Modelled:* ModState.v: get_state and set_state of models over a heap of module objects, the extra case of graph models, and calls with and without update_state; modules and callable are arbitrary.

*Proof:* induction on the modules (writing back) and on the calls (threading), with the laws of a well-behaved module as hypotheses; witnesses are modules that count calls or sum inputs.

*Extent:* False of the code for graph models with an unconnected module that is not ready (C137_put_back_refuted, C137_none_refuted) and for module objects used in two places (C137_threading_refuted). Proved otherwise: C137_put_back_partial, C137_threading_partial, and C137_without_update for every model. The structure of the containers of modules is left out (states are lists in the order of the leaves); batching of a call is C22.

*Theorems:* `C137_put_back_partial`, `C137_threading_partial`, `C137_without_update`, `C137_put_back_refuted`, `C137_none_refuted`, `C137_threading_refuted` (in `Props_ModState.v`)

### C138 A sample without uncertainty does not spoil the intervals of the others (partial)

*Modelled:* InfScores.v: scores, quantile and intervals over the reals with an infinity and a NaN.

*Proof:* infinite scores are replaced by a real number above all finite ones, which commutes with sorting; strictly between two positions both weights are positive, so that the quantile is infinite exactly if a neighbour is, and the theorem of C42 applies. The weights at the position n - 1 (alpha < 2/(n+1)) are one and zero.

*Extent:* Proved for alpha >= 2/(n+1) without exactly predicted samples of uncertainty zero (C138_partial), and for positive uncertainties (C138_positive). False otherwise: C138_exact_sample and C138_refuted (0/0), C138_small_alpha and C138_small_alpha_refuted (infinite scores). One output number; the rules of np.quantile for infinities and NaN are those of jax.numpy as known to the author (a NaN makes the quantile NaN; otherwise both neighbours times their weights), not checked by running.

*Theorems:* `C138_partial`, `C138_positive`, `C138_exact_sample`, `C138_refuted`, `C138_small_alpha`, `C138_small_alpha_refuted` (in `Props_InfScores.v`)

### C139 Training in two parts (partial)

*Modelled:* Train.v and TrainModel.v as they are.

*Proof:* with all samples in one batch an epoch is one step with a reordering of the data, on which the losses agree; runs that differ in keys, counters and the number of the epoch are in simulation. The long run passes through the end of the short one; if its best epoch was the last, patience is full and the checkpoint is where the run stands, so the resumed run is in simulation with the rest. Refuted by three trainings of three epochs.

*Extent:* Proved for settings in which nothing is left to chance, if the optimiser does not read its counter, the losses do not use the number of the epoch and the first part ends with its best epoch (C139_partial; at least two epochs in the first part, because best_epoch = 0 also stands for the initial model). C139_stuck: resuming that brought nothing once never does. False of the code otherwise (C139_refuted, one witness for each): the optimiser state returned is that before its counter was advanced, so the first resumed epoch repeats a counter (adam and complex_adam read it for bias correction and schedule); a loss given as a callable sees epochs from 0 again; and what is resumed is the best epoch, not the last, so that a training that has to get past a rise of the validation loss does so in one long run but not in short resumed ones.

*Theorems:* `C139_partial`, `C139_stuck`, `C139_refuted` (in `Props_Resume.v`)

### C140 A failed load does not leave a wrong model in use (partial)

*Modelled:* Reload.v: Model.deserialize as a sequence of steps, each of which may raise, with the model that is left.

*Proof:* by cases over the step that raises: until the last step one of the two shapes is None, which is_ready looks at.

*Extent:* Proved: after a failed load the model has no shapes, is not ready and cannot be called, unless all modules came back and only the model's own parameters or states were refused (C140_partial); a refusal for the version or for an unknown class costs only the shapes, the compiled functions and the optimiser state (C140_early); the result of a successful load does not depend on the model before (C140_forgets) and is everything in the file, nothing missing or refused (C140_complete). False of the code: that the model is as before (C140_refuted: the modules are replaced before they are filled, and compile makes the mixture usable; the second witness, a ready model after an exception, needs data in which the model's own parameters disagree with its modules).

*Theorems:* `C140_partial`, `C140_early`, `C140_complete`, `C140_forgets`, `C140_refuted` (in `Props_Reload.v`)

### C141 Saved data can be loaded again (partial)

*Modelled:* SavedData.v: Model.deserialize on nested data, with the dictionary that is left afterwards.

*Proof:* induction on nested data; that the entries taken out do not matter is a relation between data (`alike`) under which loading has one outcome.

*Extent:* False of the code: deserialize pops entries from the dictionary it is given (C141_refuted). Proved: it changes nothing else (C141_partial), these entries do not matter (C141_unread), and loading any number of times has the same outcome (C141_again); only the first load changes anything (C141_settles).

*Theorems:* `C141_partial`, `C141_unread`, `C141_again`, `C141_settles`, `C141_refuted` (in `Props_SavedData.v`)

## Trusted base

- Coq's kernel (8.16.1, no kernel checks switched off), and the reading of the theorem statements.
- That the definitions of the model files follow the cited lines; nothing is extracted from or run
  against the Python code.
- The axioms below, as printed by `Print Assumptions` for every theorem: only the axioms of Coq's
  real numbers with the functional extensionality and excluded middle they come with, and none at
  all for most theorems.

Not modelled at all: floating-point rounding and overflow, XLA compilation and device placement,
numerical differentiation by JAX, the contents of progress bars and printed text, warnings, pickling
and compression inside `np.savez`, wall-clock time (training time limits are an argument of the
loop), thread and signal behaviour except the interrupt flag of the training loop, and the
quality of random numbers. JAX functions are trusted to do what their documentation says:
`jax.tree.*` flatten dictionaries in sorted key order and reject different structures,
`jax.random.split`/`permutation` return distinct keys / a permutation, `jax.lax.scan` iterates,
`np.linalg.eigh` returns an orthonormal eigenbasis, `np.quantile`/`np.interp`/`np.argsort` as stated
in the model files.

### Axioms per theorem

**Closed under the global context (no axioms)** — 563 theorems:

`C01_write_then_read`, `C02_write_is_local`, `C03_partial_lookup_splits_path`, `C03_strict_lookup`, `C04_conflicting_fills_rejected`, `C04_existing_leaf_not_overwritten`, `C04_extend_structure`, `C05_make_mutable`, `C05_make_mutable_fixpoint`, `C06_slots_made_distinct`, `C07_container_target_refuted`, `C07_every_slot_one_source`, `C07_trailing_separator_refuted`, `C08_connections_kept`, `C08_order_preserved_refuted`, `C08_trailing_separator_loses_connection_refuted`, `C08_valid_connections_accepted`, `C09_edge_into_start_refuted`, `C09_order_is_topological`, `C100_hermitian_matrix`, `C100_low_rank_partial`, `C100_low_rank_refuted`, `C100_sum_refuted`, `C100_sums_partial`, `C100_tensor`, `C101_frozen_settings`, `C101_hermitian`, `C101_observables_hermitian`, `C101_recompiled`, `C102_fresh`, `C102_fresh_forgets`, `C102_fresh_optimiser`, `C102_no_epochs`, `C102_nothing_to_resume`, `C102_refuted`, `C102_resumed_partial`, `C103_freeze`, `C103_other_models`, `C103_refuted`, `C103_set_then_get_partial`, `C103_some_part`, `C103_unshared`, `C104_behaves_partial`, `C104_copy`, `C104_independent`, `C104_refuted`, `C106_compiled_partial`, `C106_compiles`, `C106_refuted`, `C107_end_partial`, `C107_epochs_reach`, `C107_nothing`, `C107_refuted`, `C107_reset_refuted`, `C107_update_partial`, `C108_never_back`, `C108_refuted`, `C108_seconds_partial`, `C109_answers_partial`, `C109_distance_off`, `C109_encoding`, `C109_input_off_partial`, `C109_nothing`, `C109_off_refuted`, `C109_off_stale_refuted`, `C109_uncalibrated`, `C109_uncertainty`, `C10_accepted_iff`, `C10_acyclic_accepted_refuted`, `C10_otherwise_runtime_error`, `C110_again_refuted`, `C110_compile_again`, `C110_einsum_runs`, `C110_matmul_runs`, `C110_output_refuted`, `C110_ready_after`, `C110_ready_refuted`, `C110_repeated_refuted`, `C110_retry_refuted`, `C111_accepted_iff`, `C111_size_needed`, `C111_tree_refuted`, `C112_compiled`, `C112_count_partial`, `C112_model`, `C112_real_refuted`, `C112_unique`, `C114_accepted_iff`, `C114_elsewhere`, `C114_jax_paths_added`, `C114_jax_paths_never`, `C114_kept`, `C114_outermost`, `C114_parent`, `C114_read`, `C114_refused`, `C114_reset_refuted`, `C114_write`, `C115_graph_partial`, `C115_graph_refuted`, `C115_ready_iff`, `C115_reason`, `C115_unknown_iff`, `C116_aligned_refuted`, `C116_balanced_partial`, `C116_balanced_refuted`, `C116_content`, `C116_frozen_never`, `C116_graph`, `C116_limit_partial`, `C116_limit_refuted`, `C116_model`, `C116_nested_never`, `C116_outermost`, `C116_small_limit_never`, `C117_frozen_partial`, `C117_refuted`, `C117_reload`, `C117_trained_in_order`, `C117_transparent`, `C118_abstract`, `C118_accepted`, `C118_checked`, `C118_names_refuted`, `C118_refuted`, `C118_typed_partial`, `C119_found_partial`, `C119_lost`, `C119_one_file`, `C119_refuted`, `C119_separate`, `C11_execution_order_partial`, `C11_inputs_name_refuted`, `C11_order_commutes_with_renaming_partial`, `C11_output_layer_name_refuted`, `C11_renaming_partial`, `C11_shapes_partial`, `C120_conformal`, `C120_conformal_partial`, `C120_conformal_refuted`, `C120_not_upgraded`, `C120_refuted`, `C120_strict`, `C120_upgrade_fails`, `C120_upgraded`, `C121_comes_back`, `C121_lasts`, `C121_lasts_partial`, `C121_refuted`, `C121_set`, `C122_asked`, `C122_direction_partial`, `C122_direction_refuted`, `C122_real_partial`, `C122_recover`, `C122_refuted`, `C122_stuck`, `C122_train`, `C123_different`, `C123_independent`, `C123_later`, `C123_others`, `C123_own_key`, `C123_size_partial`, `C123_size_refuted`, `C124_modules`, `C124_steps`, `C124_validation`, `C124_validation_refuted`, `C125_after_never`, `C125_after_refuted`, `C125_default_iff`, `C125_first`, `C125_later_quiet_never`, `C125_quiet_partial`, `C125_second_never`, `C125_second_refuted`, `C125_second_tracing_partial`, `C125_thread_refuted`, `C125_undisturbed`, `C126_after`, `C126_compile`, `C126_entries`, `C126_error`, `C126_first`, `C126_mixing_refuted`, `C126_shapes_partial`, `C126_squeeze_refuted`, `C127_again`, `C127_announced_refuted`, `C127_asked_compiled`, `C127_asked_partial`, `C127_asked_refuted`, `C127_compile_partial`, `C127_refuted`, `C127_sequential`, `C128_last`, `C128_partial`, `C128_refuted`, `C128_steps_refuted`, `C129_in_place`, `C129_keys`, `C129_random_refuted`, `C12_dataflow_semantics`, `C12_mixed_keys_refuted`, `C12_solutions_computed`, `C130_apart_partial`, `C130_same_seed`, `C130_same_seed_refuted`, `C130_shuffles`, `C131_appended_partial`, `C131_inserted_refuted`, `C131_popped_refuted`, `C131_taken_away`, `C131_unmentioned_partial`, `C132_common_refuted`, `C132_others`, `C132_own_data_partial`, `C132_shared_never`, `C132_shared_refuted`, `C132_unfitted`, `C133_added_refuted`, `C133_empty`, `C133_name`, `C133_output_layer_refuted`, `C133_output_names`, `C133_reserved`, `C133_separator`, `C133_works_iff`, `C135_accepted`, `C135_graph_partial`, `C135_refuted`, `C135_sequential_partial`, `C136_constructor_refuted`, `C136_copies_share`, `C136_other_operations`, `C136_partial`, `C136_refuted`, `C137_none_refuted`, `C137_put_back_partial`, `C137_put_back_refuted`, `C137_threading_partial`, `C137_threading_refuted`, `C137_without_update`, `C139_partial`, `C139_refuted`, `C139_stuck`, `C13_unconnected_irrelevant`, `C13_unconnected_state_kept`, `C140_complete`, `C140_early`, `C140_forgets`, `C140_partial`, `C140_refuted`, `C141_again`, `C141_partial`, `C141_refuted`, `C141_settles`, `C141_unread`, `C14_state_update`, `C15_state_argument_modified_refuted`, `C15_unexecuted_parts_kept_partial`, `C16_graph_shapes`, `C16_sequential_shapes`, `C17_composition_computed`, `C17_nesting_irrelevant`, `C17_sequential_composition`, `C18_insertion_order_refuted`, `C18_sorted_insertion_partial`, `C19_chain_is_sequential`, `C19_mixed_keys_refuted`, `C19_sequential_is_chain`, `C20_graph_keys_refuted`, `C20_graph_same_key`, `C20_sequential_keys`, `C21_batching_transparent`, `C21_one_axis_refuted`, `C22_single_call`, `C22_state_threaded`, `C23_oversized_batch_refuted`, `C23_split_lossless`, `C24_shuffle_aligned`, `C24_shuffle_total`, `C25_each_sample_once`, `C26_best_checkpoint`, `C27_nothing_to_train`, `C27_quiet_interrupt_refuted`, `C27_stops_exactly`, `C27_terminates`, `C28_callback_refuted`, `C28_frozen_unchanged`, `C28_own_gradient`, `C29_divisible_partial`, `C29_refuted`, `C30_complex_counter`, `C30_complex_refuted`, `C30_real_counter`, `C30_resume_refuted`, `C31_accepted`, `C31_accepted_iff`, `C31_batch_size_refuted`, `C31_batch_sizes`, `C31_custom_val_loss_refuted`, `C31_losses_called`, `C31_losses_only`, `C31_missing_targets_refuted`, `C31_rejected`, `C31_val_targets_ignored_refuted`, `C31_val_unc_ignored_refuted`, `C31_value_error`, `C33_append`, `C33_append_refuted`, `C33_dict_append_order_refuted`, `C33_frame`, `C33_history`, `C33_insert`, `C33_insert_existing_key_refuted`, `C33_pop`, `C33_pop_key`, `C33_pop_out_of_range`, `C33_prepend`, `C33_replace_index`, `C33_replace_key`, `C33_tuple_pop_last_always`, `C33_tuple_pop_last_refuted`, `C33_tuple_replace_always`, `C33_tuple_replace_refuted`, `C34_add_partial`, `C34_list_always`, `C34_list_refuted`, `C34_order_refuted`, `C35_answered`, `C35_current_partial`, `C35_in_place_refuted`, `C35_recompile_refuted`, `C35_set_hyperparameters_refuted`, `C35_up_to_date`, `C35_values`, `C36_dict_order_refuted`, `C36_file_partial`, `C36_file_ragged_refuted`, `C36_file_tuple_refuted`, `C36_leaves`, `C36_roundtrip_partial`, `C36_settled_affine_hermitian`, `C36_settled_affine_tensor`, `C36_settled_bias`, `C36_settled_expectation`, `C36_settled_plain`, `C36_settled_set`, `C36_uncompiled_refuted`, `C37_activation_partial`, `C37_activation_refuted`, `C37_affine_hermitian`, `C37_affine_tensor`, `C37_bias`, `C37_bias_refuted`, `C37_comment`, `C37_concatenate_partial`, `C37_concatenate_refuted`, `C37_constant`, `C37_eigen`, `C37_eigenvalue_pmm_partial`, `C37_eigenvalue_pmm_refuted`, `C37_einsum`, `C37_expectation`, `C37_linearnn_partial`, `C37_linearnn_refuted`, `C37_lowrank_always`, `C37_lowrank_refuted`, `C37_matmul_partial`, `C37_matmul_refuted`, `C37_prelu`, `C37_reshape`, `C37_treeflatten`, `C37_treekey`, `C38_converts`, `C38_idempotent`, `C38_integer_refuted`, `C38_kind_partial`, `C38_safecast`, `C38_spellings`, `C38_unused_module_refuted`, `C39_mixed`, `C39_samples`, `C41_always_refuted`, `C41_categories`, `C41_categories_refuted`, `C41_chain_needed`, `C41_chain_partial`, `C41_distinct`, `C41_one_feature`, `C41_one_hot`, `C41_refuted`, `C41_unseen`, `C44_quantiles_stay`, `C47_eigenvalues`, `C47_hermitian`, `C47_hermitian_params`, `C47_low_rank`, `C47_low_rank_bound`, `C47_value`, `C48_commuting`, `C48_hermitian`, `C48_pairs`, `C50_eigenvalues_dict`, `C51_accepted_refuted`, `C51_batch_everywhere_refuted`, `C51_batch_index_fresh`, `C51_text_accepted`, `C52_accepted_refuted`, `C52_many_refuted`, `C52_matrix_product`, `C52_one_sample`, `C52_product_associative`, `C52_product_refuted`, `C52_semiring`, `C53_flatten`, `C53_negative_refuted`, `C53_none_refuted`, `C53_rejects`, `C53_reshape`, `C53_scalar_refuted`, `C53_tree_flatten`, `C53_tree_key`, `C53_tree_key_picks`, `C53_tuple_refuted`, `C54_entries`, `C54_refuted`, `C54_shape`, `C54_shifted_refuted`, `C55_bias_ignored_always`, `C55_supplied_bias_refuted`, `C55_supplied_partial`, `C56_extend_nested_tuple_refuted`, `C56_kinds_kept_partial`, `C57_extend_order_independent_refuted`, `C57_order_independent_partial`, `C59_graph_partial`, `C59_no_axes_refuted`, `C59_ready_graph`, `C59_ready_modules_refuted`, `C59_refuted`, `C59_sequential_partial`, `C60_first_partial`, `C60_other_options_partial`, `C60_refuted`, `C61_basis`, `C61_expectation`, `C61_phases`, `C61_real`, `C61_transition`, `C62_conjugate`, `C62_spectrum`, `C63_matrix`, `C63_shape`, `C63_tensor`, `C64_samples_exist`, `C64_samples_independent`, `C65_announced_refuted`, `C65_shape_announced`, `C66_compiles_iff`, `C66_mixed_keys_refuted`, `C66_runs_if_modules_do`, `C67_append_lost_always`, `C67_append_refuted`, `C67_append_starts_over_always`, `C67_recompile_partial`, `C67_sum_never_compiles_always`, `C68_all_eigenvalues_refuted`, `C68_announced_partial`, `C68_size_from_observables_refuted`, `C69_entrywise`, `C69_glu_value`, `C69_reductions_rejected`, `C69_rowwise`, `C69_rowwise_samples`, `C69_shape_refuted`, `C70_bias_adds`, `C70_kind`, `C70_samples_refuted`, `C70_scalar`, `C70_shapes_refuted`, `C71_constant_repeats`, `C71_shapes_refuted`, `C72_prelu`, `C73_bias_kept`, `C73_constant_kept`, `C73_prelu_refuted`, `C74_continuous_refused`, `C78_answer_partial`, `C78_empty_refuted`, `C78_missing_axis_refuted`, `C78_shapes_equal`, `C78_training`, `C78_uniform`, `C78_uniform_equal`, `C86_input_batching`, `C86_input_rows`, `C86_input_state_refuted`, `C87_input_axis`, `C87_input_never`, `C87_input_state_refuted`, `C87_params`, `C87_params_batches`, `C88_activation_found`, `C88_affine`, `C88_one_array`, `C88_parameters`, `C88_scalar_rejected`, `C89_announced`, `C89_glu_refuted`, `C89_resized_refuted`, `C90_memory`, `C90_unfitted`, `C91_array_in_list`, `C91_bounds_never`, `C91_bounds_refuted`, `C91_file`, `C91_file_refuted`, `C91_list_never`, `C91_mixed_list_never`, `C91_mixed_refuted`, `C91_ragged_refuted`, `C91_tuple_refuted`, `C92_failed_calibration_refuted`, `C92_file`, `C92_memory`, `C92_name_refuted`, `C93_changes_refuted`, `C93_flags_break`, `C93_mask`, `C93_refuted`, `C93_shapes`, `C94_fresh`, `C94_input_refuted`, `C94_success`, `C95_flags`, `C95_freeze_unmixed`, `C95_frozen_modules_kept_partial`, `C95_modules_unmixed`, `C95_refuted`, `C95_trainable_means_any`, `C96_get_then_set`, `C96_misfits_refused`, `C96_refuted`, `C96_set_then_get_partial`, `C97_count_is_number_of_reals`, `C97_count_none_iff`, `C97_count_of_modules`, `C97_flat`, `C98_accepts`, `C98_exact_partial`, `C98_not_ready`, `C98_refuted`, `C98_rejects`, `C98_uneven_wf`, `C99_any`, `C99_close_arrays_partial`, `C99_close_structure`, `C99_equal_arrays_partial`, `C99_equal_values`, `C99_refuted`

**Axioms `ClassicalDedekindReals.sig_forall_dec`** — 7 theorems:

`C32_huber_parameter`, `C32_known_names`, `C32_misspelt_refuted`, `C32_names_mean`, `C32_unknown_names`, `C44_nonempty`, `C50_eigh_ok`

**Axioms `FunctionalExtensionality.functional_extensionality_dep`** — 1 theorems:

`C86_params_batching`

**Axioms `ClassicalDedekindReals.sig_forall_dec`, `FunctionalExtensionality.functional_extensionality_dep`** — 91 theorems:

`C105_always_refuted`, `C105_own_history_partial`, `C105_refuted`, `C105_reloaded`, `C105_separate`, `C113_bias_refuted`, `C113_calibration_data`, `C113_interval`, `C113_one_term_partial`, `C113_one_term_refuted`, `C113_refuted`, `C113_terms_refuted`, `C134_all_different`, `C134_few`, `C134_few_refuted`, `C134_scalars`, `C134_scalars_refuted`, `C134_warns_iff_partial`, `C134_wide`, `C134_wide_refuted`, `C138_exact_sample`, `C138_partial`, `C138_positive`, `C138_refuted`, `C138_small_alpha`, `C138_small_alpha_refuted`, `C39_minmax`, `C39_minmax_increasing`, `C39_robust_always_refuted`, `C39_robust_features`, `C39_robust_partial`, `C39_robust_refuted`, `C39_standard`, `C39_standard_increasing`, `C40_minmax`, `C42_always_refuted`, `C42_condition`, `C42_coverage_partial`, `C42_features`, `C42_order`, `C42_rank`, `C42_refuted`, `C43_inside`, `C43_nested`, `C43_normalised`, `C43_rejected`, `C44_always_refuted`, `C44_exact`, `C44_exact_total`, `C44_first_request_partial`, `C44_refuted`, `C45_cases`, `C45_infinite`, `C45_usable`, `C46_always_refuted`, `C46_distinct_weights_partial`, `C46_matrices_rejected`, `C46_range`, `C46_refuted`, `C46_two`, `C49_all`, `C49_invalid`, `C49_selection`, `C49_values`, `C50_always_refuted`, `C50_eigensystem`, `C50_eigenvalues_partial`, `C50_eigenvectors`, `C50_list_refuted`, `C50_refuted`, `C74_global_centred`, `C74_strata_centred_partial`, `C74_two_outputs_refuted`, `C75_distance_refuted`, `C75_formula_partial`, `C75_normalisations`, `C75_output_shapes_refuted`, `C76_samples_refuted`, `C76_shape_refuted`, `C77_division_by_zero_refuted`, `C77_nothing_selected`, `C79_any_category`, `C79_gower_partial`, `C79_refuted`, `C80_bounds`, `C80_training_samples_refuted`, `C81_constant_feature_refuted`, `C81_new_category_refuted`, `C81_wide_category_refuted`, `C82_average`, `C84_clip`

**Axioms `ClassicalDedekindReals.sig_forall_dec`, `ClassicalDedekindReals.sig_not_dec`, `FunctionalExtensionality.functional_extensionality_dep`** — 28 theorems:

`C32_huber_tree_refuted`, `C32_mixed_shapes_refuted`, `C32_nonneg`, `C32_perfect`, `C32_relative_refuted`, `C32_uncertainties_unused`, `C32_value`, `C40_constant_lost`, `C40_standard`, `C58_refuted`, `C58_structure_partial`, `C82_adam_one_batch`, `C82_batches_refuted`, `C82_complex_adam_partial`, `C82_constant`, `C82_epochs_refuted`, `C83_bounded`, `C83_bounded_complex`, `C83_first`, `C83_usual`, `C84_clipped`, `C84_clipped_complex`, `C84_direction_refuted`, `C84_same_without`, `C85_first`, `C85_phase`, `C85_phase_clipped_refuted`, `C85_real`

**Axioms `ClassicalDedekindReals.sig_forall_dec`, `ClassicalDedekindReals.sig_not_dec`, `Classical_Prop.classic`, `FunctionalExtensionality.functional_extensionality_dep`** — 1 theorems:

`C69_samples_mixed_refuted`

### What each model file covers

**`Base.v`** Base vocabulary shared by all model files: exceptions as values, Python
strings, Python dictionaries (insertion ordered), list update.

Simplifications (recorded in DESIGN.md):
- Python `str` is Coq `string` (ASCII); `str.isdigit` is the ASCII test.
- a path separator is one character (the code allows any string; the
default everywhere in /repo is the one character string ".").
- exception messages are dropped, exception classes are kept.

**`TreeUtil.v`** Model of the path functions of /repo/parametricmatrixmodels/tree_util.py.

**`Connections.v`** Model of the connection-dictionary functions of
/repo/parametricmatrixmodels/graph_util.py (L10-682).

**`Resolve.v`** Model of resolve_connections / validate_resolution
(/repo/parametricmatrixmodels/graph_util.py L685-786).

**`NonSeq.v`** Model of the forward pass and the shape bookkeeping of
/repo/parametricmatrixmodels/nonsequentialmodel.py.

**`Seq.v`** Model of /repo/parametricmatrixmodels/sequentialmodel.py.

**`Batch.v`** Model of batching: /repo/parametricmatrixmodels/tree_util.py L872-907,
L1119-1295 and `autobatch` of model_util.py L73-262.

**`Train.v`** Model of the training loop, /repo/parametricmatrixmodels/training.py
L96-1128 (argument handling of `train` is in TrainArgs.v).

**`TrainArgs.v`** Model of the argument handling of training: `train`,
/repo/parametricmatrixmodels/training.py L1132-1738 up to the call of
`_train`, and the loss functions handed over by `Model.train`,
/repo/parametricmatrixmodels/model.py L1094-1180.
Warnings, the callback default, random keys and the optimizer are left out.

**`Loss.v`** Model of the named loss functions, /repo/parametricmatrixmodels/training.py
L1741-1971, and of the tree arithmetic they use, tree_util.py L580-870.
Numbers are exact complex numbers over the reals, or `None` for anything that
is not finite (infinity and NaN are not told apart).

**`Edit.v`** Model of editing the modules of a model: `Model.__setitem__`, `insert_module`,
`append_module`, `prepend_module`, `pop_module_by_index`, `pop_module_by_key`
and `__add__`, /repo/parametricmatrixmodels/model.py L1302-1520.
The outermost container of the modules is a mutable object, so it lives in a
heap and models hold references to it.  Items of the container (modules or
nested containers) are values.  Everything `reset` clears (L192-209: shapes,
callables, optimizer state) is one flag.  Paths as keys are left out.

**`Cache.v`** Model of the functions a model caches between calls: `Model.reset`,
`__call__`, `grad_input`, `grad_params`, `train`, `set_params`, `set_state`,
`set_hyperparameters`, `deserialize` and module edits, model.py L192-209,
L510-955, L1093-1249, L1302-1500, L1546-1578, L1639-1742, and `compile` of
SequentialModel (sequentialmodel.py L93-153) and NonSequentialModel
(nonsequentialmodel.py L404-521).  All in /repo/parametricmatrixmodels.

A module is a pair of what its `_get_callable` reads when the function is
built (as modules/einsum.py L629 does) and what the function reads from the
module object when it is traced (as modules/reshape.py does).  A jitted
function keeps, per signature (shapes and types of the arguments), what it
read when it was traced.  The numerical work is left out: an evaluation is
described by the modules, parameters and state it uses.  Functions live in a
store, so that the same function can be held by several slots.

**`Modules.v`** Serialising, deserialising and copying module objects
(parametricmatrixmodels/modules/basemodule.py L735-929) and, class by
class, the attributes, hyper-parameters and parameters of the built-in
modules.

Simplifications:
- a module object is the dictionary of its attributes plus its `trainable`
flag (a property with a private attribute, basemodule.py L46-83);
- arrays carry an opaque identity, their shape and whether they are real;
floats and complex numbers are opaque identities;
- package and module versions agree (L858-874 then do nothing);
- no built-in module overrides `get_state`/`set_state` in a way that has an
effect (basemodule.py L566-607, comment.py L66-67), so the state is ();
- warnings are dropped.

**`Serial.v`** Serialising and deserialising whole models
(parametricmatrixmodels/model.py L1529-1742, L1756-1825,
nonsequentialmodel.py L927-978).

A model is a tree of modules, each of which may itself be a model.
Simplifications:
- class names and module names in the saved data (L1591-1598) are
represented by the class itself, next to the serialised data of each
module; all are produced by `jax.tree.map` over the same tree;
- versions agree; the module name entries are not used when loading;
- the random key and the optimiser states are opaque; the optimiser state
is the list of its leaves (L1611-1620 flattens it, L1714-1717 rebuilds it
with the structure of the parameters);
- module states are (), as for all built-in modules (see Modules.v);
- compiled functions are not part of the value: L1662 resets them.

**`Precision.v`** Setting the precision of modules and models (modules/basemodule.py
L610-694, model.py L957-1020) and casting data (tree_util.py L1299-1342).

Simplifications: arrays are pairs of a data type and opaque contents; the
conversion of contents (`astype`) is an argument; `set_params` and
`set_state` store what they are given (their shape checks do not depend on
the data type); whether a module or model is ready is a stored flag.

**`Scaler.v`** Feature scalers (parametricmatrixmodels/preprocessing/standard_scaler.py,
minmax_scaler.py, robust_scaler.py, mixed_scaler.py).

Simplifications:
- real arithmetic instead of floating point; `None` is a value that is not a
finite number (division by zero);
- a leaf of the data is a batch of samples, each a flattened row of features;
the statistics of a leaf are rows as well;
- the data passed to transform must have the same structure, and the same
number of features per leaf, as those passed to fit (otherwise ValueError
here; numpy would broadcast a single feature).

**`OneHot.v`** One-hot encoding (parametricmatrixmodels/preprocessing/onehot.py).

Simplifications:
- the numbers are any type with the operations of `ops` (comparison, zero,
one, sum, product); the theorems assume they are lawful, so no NaN;
- a leaf is a batch of flattened rows with the shape of one sample; reshaping
back only relabels it;
- transforming data with another number of features than fitted is a
ValueError (numpy would broadcast a single feature).

**`Conformal.v`** Conformal prediction
(parametricmatrixmodels/conformal/conformalizedmodel.py): quantiles of the
calibration scores, intervals, robust normalisation, weighted quantiles.

Simplifications:
- real numbers instead of floats; scores, predictions and uncertainties are
finite, so scores come from positive uncertainties;
- a leaf is a batch of samples, each a flattened row of features;
- the wrapped model and the sensitivities only enter through the
predictions, the uncertainties and the scores they yield, which are
arguments here;
- `np.quantile` is jax.numpy's linear interpolation with both neighbours'
positions clamped to the data; `np.interp` is linear interpolation,
constant outside.

**`Eigen.v`** Eigenvalue selection (parametricmatrixmodels/eigen_util.py) and the modules
Eigenvalues, Eigenvectors and Eigensystem
(parametricmatrixmodels/modules/eigenvalues.py, eigenvectors.py,
eigensystem.py).

Simplifications:
- eigenvalues are real numbers (they come from `eigvalsh`/`eigh`), so there
is no NaN; entries of eigenvectors are of any type;
- `np.linalg.eigh` is an argument;
- an array of matrices is the list of its samples; `jax.vmap` is a map;
- `np.argsort` is a stable sort.

**`Herm.v`** Model of the modules that build the primary matrix and evaluate the
observables of a parametric matrix model:

parametricmatrixmodels/modules/_smoothing.py            (whole file)
parametricmatrixmodels/modules/affinehermitianmatrix.py L140-210, L94-116,
L289-311
parametricmatrixmodels/modules/lowrankaffinehermitianmatrix.py L132-213
parametricmatrixmodels/modules/affinetensor.py          L109-164
parametricmatrixmodels/modules/expectationvaluesum.py   L168-208
parametricmatrixmodels/modules/transitionamplitudesum.py L168-209

Simplifications.
- Numbers are the elements of an arbitrary closed field with a conjugation
and an order on its real part (mathcomp's numClosedFieldType, e.g. the
algebraic complex numbers); rounding of float32/complex64 is not modelled.
- dtypes are not modelled (`Ms.astype(dtype)` is the identity here).  A real
array is an array all of whose entries are real.
- An array of shape (p, n, n) is a sequence of p matrices of size n; the
batch axis is a sequence of samples.
- The data tree has a single leaf (the modules' `compile` accepts nothing
else), so `jax.tree.map` is application to that leaf.
- Shape annotations checked by jaxtyping at call time are modelled by
returning None.

**`NdArray.v`** A small model of numpy/jax.numpy arrays: a shape and the elements in row-major
order.  Used wherever the repository relies on broadcasting, reshaping or
concatenation.

**`Reshape.v`** The modules that only rearrange data:
parametricmatrixmodels/modules/reshape.py, flatten.py, treeflatten.py,
treekey.py and concatenateleaves.py.

Simplifications:
- the entries of arrays are of any type;
- trees of data have no None nodes; a None in a target tree is `Leaf None`;
- sizes do not overflow (the code multiplies int32 numbers);
- `jax.tree.map` on trees of different structure raises ValueError here
(sometimes TypeError from beartype in the code).

**`Einsum.v`** Einsum modules (parametricmatrixmodels/modules/einsum.py): the subscript
string built from the user's notation and the shapes of the data, the sizes
of the indices, the announced shape, and the computation.

Simplifications:
- the notation is a tree of strings (a bare string is a leaf);
- a shape of the data is a `Leaf` of the shape tree; None and () inside the
tree of shapes are left out;
- elements of a notation triple of another type than the annotated one are
a TypeError (the code fails later with some exception);
- numbers are any type with the operations of a ring; dtypes are left out.

**`MatMul.v`** MatMul modules (parametricmatrixmodels/modules/matmul.py): the subscripts and
sizes handed to the Einsum module they derive from, and Einsum's compile
(parametricmatrixmodels/modules/einsum.py L682-775).

Simplifications:
- a shape of the data is a `Leaf` of the shape tree; None and () inside the
tree of shapes are left out; separators are single characters;
- a path to a subtree instead of an array is a ValueError (the code goes on
with a tuple of tuples and fails later);
- None in the inferred size of the parameter matrix is a TypeError (the code
fails later, when the matrix is drawn);
- the random initial parameters are a function of their shape.

**`Composite.v`** The composite modules AffineObservablePMM and AffineEigenvaluePMM
(parametricmatrixmodels/modules/affineobservablepmm.py,
affineeigenvaluepmm.py): sequential models that build their own list of
modules when they are compiled.

Simplifications:
- the modules are the objects of Modules.v; arrays are opaque identities
with a shape, floats are opaque identities (1 is 0.0);
- `jax.random.normal` is an argument `draw` that gets the position of the
module and the shape;
- a module the user adds (`CUser`) has no parameters and keeps shapes, like
an activation;
- the tuple L299 and the list L255 are both lists here; warnings, printing
and the random key are dropped.

**`Layers.v`** Model of the small layers working on trees of arrays:
modules/activationbase.py with _autogenerated_activationfuncs.py,
modules/bias.py, modules/constant.py and modules/prelu.py.

Simplifications.  The numbers are an arbitrary type `V` with the operations
used; random initial parameters come from a function `draw` of the shape
(the key handling does not influence shapes or structure; every leaf gets
its own key, so `draw` may also be given the position of the leaf, which we
leave out).  Rounding is not modelled.

**`Strata.v`** Bias corrections of conformal models
(parametricmatrixmodels/conformal/conformalizedmodel.py, the parts of
`calibrate` and `__call__` that correct the predictions).

Simplifications:
- real numbers instead of floats (no NaN);
- a leaf is a batch of samples with the shape of one sample, each sample a
flattened row (as in OneHot.v);
- the wrapped model only enters through its predictions;
- a tree `NoneT` of flags is not considered (the annotation excludes it).

**`Uncertainty.v`** The uncertainty heuristic of conformal models
(parametricmatrixmodels/conformal/conformalizedmodel.py).

Simplifications:
- real numbers; `None` is an entry that is not finite.  Gradients, parameters
and scales may be complex in the code, which only uses |df x|^2 = |df|^2 |x|^2,
so an entry stands for itself or its absolute value;
- the gradients are arguments: a tree like the outputs with a tree like the
inputs (parameters) at every leaf, an array of shape (samples, output
shape, input shape) each;
- a normalisation is positive or infinite (`None`), see `norm_of`;
- zero samples are outside of the model (`jax.vmap` gives arrays without
entries; here ValueError);
- the checks of the structure and the shape of X (L1435-1457) are not
modelled: the data are assumed to have passed them.

**`Shapes.v`** Comparisons of the shapes of trees of arrays,
parametricmatrixmodels/tree_util.py L77-99, L973-1115.
Simplifications: every leaf is an array (anything else is stopped by the
annotations); slices have no step; an array is its shape.

**`Distance.v`** Distances of conformal models to their training data
(parametricmatrixmodels/conformal/conformalizedmodel.py L602-703, L998-1123).

Simplifications:
- real numbers; `None` is a number that is not finite (division by zero);
- a leaf is a batch of flattened rows with the shape of one sample;
- the k-d tree is a list of points and its queries are the exact answers;
it refuses numbers that are not finite (ValueError), as scipy does;
- dividing one-hot codes by the range of a categorical leaf (L1103) uses
broadcasting only if that leaf has one number per sample; other accidental
cases of broadcasting are a TypeError here.

**`Adam.v`** The arithmetic of the optimizers (parametricmatrixmodels/training.py L113-299).

Simplifications:
- real arithmetic; the casts to 32 bits (L118-122, L172-173, L264-265) are
not modelled;
- an array is the list of its entries: all operations act entry by entry;
- for complex parameters `v` is a sum of squared moduli; its imaginary part
is always 0 and is left out;
- `clip` is `None` for infinity.

**`Grad.v`** Gradients of models: /repo/parametricmatrixmodels/model.py L633-956.

Simplifications:
- parameters, training flag (`False`) and random key are fixed: they are
passed unchanged to every call;
- `jax.jacfwd`/`jax.jacrev` are function arguments; they give the same
values and are not distinguished here (see Cache.v for which of them is used);
- as everywhere in Batch.v, an array of data is the list of its rows.

**`Linear.v`** LinearNN (parametricmatrixmodels/modules/linearnn.py): a sequential model that
builds Flatten, MatMul, Bias and an activation for itself when it is compiled.

Simplifications:
- the four kinds of modules are those of Reshape.v, MatMul.v and Layers.v;
- `jax.random.normal` times the magnitude is a function `normal` of the
position of the module and the shape; the flag `real` and printing are left out;
- an announced shape with a float (Flatten of scalars, see Reshape.v) is a
TypeError in the next module (jax refuses it as the shape of parameters).

**`ScalerFile.v`** Saving and loading scalers (parametricmatrixmodels/preprocessing/scaler.py
L146-205 and the `serialize`/`deserialize` of standard_scaler.py L108-145,
minmax_scaler.py L187-225, robust_scaler.py L237-283, onehot.py L140-177,
mixed_scaler.py L148-237).

A Python value is a tree whose leaves are booleans, integers, other numbers,
strings and arrays.
Simplifications:
- numbers are any type with an embedding of the integers; dtypes are dropped
(so rounding on conversion between dtypes is as well);
- what one leaf of the data is turned into is an argument (`kern`): it gets
the class, the direction, the settings used and the values found at the
place of the leaf;
- only the built-in scaler classes are known.

**`ConfState.v`** Conformal models as objects: what `calibrate` stores and when, what the other
methods read, saving and loading
(parametricmatrixmodels/conformal/conformalizedmodel.py L146-814, L816-1089,
L1125-1523, L1525-1770).

This file is about the attributes of the object. All numerical work is done
by functions that are arguments here (`numerics`); each gets what the code
reads for it and may fail. (Strata.v, Distance.v, Uncertainty.v and
Conformal.v say what these functions are.)
Simplifications:
- `update_state` is false, so the wrapped model does not change;
- the check of the features against the mask of continuous ones only warns
(L361-417) and is left out, as are messages and progress displays;
- versions agree when loading;
- the entries of a saved file are numpy's pickles of the values, which come
back as they were; a string or None comes back as an array without axes
unless `from_file` unpacks it (L1745-1766).

**`Params.v`** The parameters of models: /repo/parametricmatrixmodels/model.py L85-95,
L147-155, L281-334, L1186-1264; modules/basemodule.py L45-78, L222-249,
L931-951.

Simplifications:
- a module that is not a model is any type `M` with its own methods;
`m_set` returns the module after the call also if it raised an exception;
- dictionaries of modules are listed in the order of their keys (these
functions reach them only through jax, which sorts);
- a model occurs once (no sharing of modules);
- training itself is a function of the parameters with their flags, see Train.v.

**`TreeEq.v`** Comparison of trees: `any`, `all_equal`, `all_close`,
/repo/parametricmatrixmodels/tree_util.py L14-76, and the check of the
data in every call of a model, model.py `_verify_input` L492-506.

Simplifications:
- numbers are any type with a decidable equality (no NaN, which differs
from itself) and a relation `close`;
- a leaf is an array of jax, an array of numpy or any other value;
- the truth value of an array with several entries raises ValueError, that
of an empty one as well.

**`MatMods.v`** The life of a matrix module: AffineHermitianMatrix,
LowRankAffineHermitianMatrix, AffineTensor, ExpectationValueSum and
TransitionAmplitudeSum (parametricmatrixmodels/modules), seen through the
shapes of their parameters and of the data. Constructors, `set_params` and
most of `compile` are those of Modules.v; here are the rest of `compile`,
`get_output_shape` and the shapes in the callables.

Simplifications: the entries of arrays are opaque (only their shape and
whether they are Hermitian matter), data are inexact arrays (so the dtype
half of the annotations holds), a value of the wrong Python type is an
error. No method changes the module before it raises, so failing calls are
no-ops.

**`TrainModel.v`** `Model.train` around the training loop of Train.v: what is handed to it and
what becomes of the result, over the life of a model
(parametricmatrixmodels/model.py L1027-1249, training.py L1275-1284,
L1540-1565, L1667-1668, L1686-1747).

Simplifications: a tree of parameters is its structure and the list of its
leaves, the form in which `train` handles it (L1540-1565); the trainable
flags are one per leaf (model.py L1197-1199, see Params.v for how they come
about); loss functions and optimiser are the arguments of Train.v, in
particular checks of the arguments are in TrainArgs.v; modules accept any
parameters of the right structure (refusals are in Params.v).

**`Share.v`** Modules are objects: models hold references to them, so a module can occur
in several models or several times in one. Methods of models that change
modules: parametricmatrixmodels/model.py L85-95, L281-334, L1031-1249,
L1581-1725, sequentialmodel.py L96-150, modules/basemodule.py L916-951.

Simplifications: those of Params.v except the last but one ("no sharing");
a module object is a value of `M`, replaced as a whole by the methods of the
module (no module changes its attributes in place); the trees of modules
are not edited here (Edit.v); models as modules are sequential.

**`ConfShare.v`** Several conformal models and the dictionaries of quantiles they keep
(parametricmatrixmodels/conformal/conformalizedmodel.py L146-205, L1125-1197,
L1525-1697, L1732-1776). The dictionary `qhats` is the only attribute that is
changed in place (L1187), so it is kept by reference.

Simplifications: those of Conformal.v; loading from a file makes new
dictionaries (pickle), in memory `deserialize` takes over the one it is
given.

**`Progress.v`** The progress bar (parametricmatrixmodels/progressbar.py) and the line of the
terminal it is written to.

Simplifications: numbers are rational numbers (no rounding); the clock does
not move within a call; the length of the bar is a natural number; a text is
a list of characters and `show` is `str` of an integer; the terminal is wide
enough for the line (no wrapping).

**`EinsumObj.v`** The life of an Einsum module (parametricmatrixmodels/modules/einsum.py): the
attributes `input_shape` and `params`, compile with its effect on them also
when it fails, readiness and evaluation.

Simplifications: as in Einsum.v and MatMul.v; the random initial parameters
are a function of their shape.

**`Dof.v`** How many numbers the matrix modules say they have: `get_num_trainable_floats`
and `set_params` of AffineHermitianMatrix, LowRankAffineHermitianMatrix,
AffineTensor, ExpectationValueSum, TransitionAmplitudeSum
(parametricmatrixmodels/modules) and of modules without an own count
(basemodule.py).

Simplifications: numbers are the elements of a field, complex numbers are
pairs of them, `np.allclose` is equality, the attributes a method does not
look at are left out; the sizes given to the constructors are not None.

**`Cover.v`** Calibrating a conformal model and calling it, from the samples to the
intervals (parametricmatrixmodels/conformal/conformalizedmodel.py): the parts
modelled in Conformal.v, Strata.v and Uncertainty.v, put together.

Simplifications:
- real numbers; scores that would be infinite or NaN (an uncertainty that is
not positive) are reported as `NotFinite`;
- the model has one output number; the inputs matter through the features
that select a stratum, the prediction, and the sensitivities before
normalisation (modelled in Uncertainty.v), which belong to the sample here;
- the wrapped model and the training data stay the same;
- no uncertainties of the labels, so no weights (L693-697).

**`Access.v`** Model of reaching modules by key or path, `Model.__getitem__` and
`Model.__setitem__`, and of readiness, `is_ready`, `_get_all_unready_modules`
and `_get_unready_reason`, /repo/parametricmatrixmodels/model.py L157-190 and
L1267-1337.
Objects are values, i.e. no module or container occurs in two places (C103
treats modules that do).  The keys of dictionaries may be any key, as in
Python.  Slices, and tuples as entries of a path, are left out.  Of a model
only its modules and whether its two shapes are set are kept; the rest that
`reset` clears (L192-209) follows the shapes.

**`Show.v`** Model of the texts that describe models: `strfmt_pytree`
(/repo/parametricmatrixmodels/tree_util.py L1345-1507), `BaseModule.__repr__`
(modules/basemodule.py L175-200), `Model.__repr__` (model.py L73-83) and
`NonSequentialModel.__repr__` (nonsequentialmodel.py L273-290).
`repr` of leaves and of trees that `is_leaf` accepts are arguments, as is the
text of a number with separators (`f"{n:,}"`).  Keys of dictionaries are
strings.

**`FineTune.v`** Training, freezing, saving and loading, module by module
(parametricmatrixmodels/model.py L85-95, L1027-1264, L1581-1741, training.py
L1275-1284, L1540-1565, L1667-1747).

This puts together Params.v (modules and their flags), Train.v (the loop)
and Serial.v (what is saved). Simplifications:
- modules are those of Params.v, with one more method `m_reload`: the module
that serialising a module and deserialising it into a new object gives
(Modules.v);
- the states of all modules are one value, as is the random key; both are
saved and loaded as they are;
- the model is ready, so that training does not compile it (model.py L1089);
- the checks of the arguments are in TrainArgs.v.

**`Subclass.v`** Definition of module classes (parametricmatrixmodels/modules/basemodule.py
L36-46, L80-148).

Simplifications: every class has one base class (true of all module classes
in the repository); a class body has functions and perhaps `__version__`;
properties, class methods and other attributes are left out (they are not
callable, so L121 skips them); classes are not changed after they are made.

**`Files.v`** Names of files (parametricmatrixmodels/model.py L1743-1850,
preprocessing/scaler.py L145-213, conformal/conformalizedmodel.py L1699-1776).

Simplifications: the file system is a function from names to contents, all
directories exist and are writable; a path is its string; file objects
(`IO`) are left out; what is written is what the object serialises to (the
contents of files are in Serial.v, ScalerFile.v and ConfState.v). Loading
a name that does not exist (FileNotFoundError) gives None.

**`Versions.v`** Versions in saved data (parametricmatrixmodels/modules/basemodule.py
L826-914, model.py L192-207, L1639-1741; conformal/conformalizedmodel.py
L1616-1638).

Simplifications: versions are compared after parsing (`packaging.version`),
so a version here is a parsed one; saved modules are their class, the two
versions and the remaining entries `D`; setting these (`set_hyperparameters`
and so on) is one function `build` of the class, as is `upgrade`; the parts
of a model are loaded in the order of jax; name, key and optimiser states of
a model belong to its entries.

**`PrecTrain.v`** Setting the precision of a model that is trained before and after
(parametricmatrixmodels/model.py L957-1029, L1201-1249, modules/basemodule.py
L610-694).

The model is that of TrainModel.v (ready, parameters as a list of arrays),
with arrays of Precision.v. Simplifications: those of these two files; the
conversion of the states of the modules is one function `st_prec`.

**`Modes.v`** How gradients are taken: forward or reverse (parametricmatrixmodels/model.py
L192-207, L633-956, training.py L1608-1622), and which kinds of numbers jax
allows for it.

Simplifications: of arrays only the data types matter; the shapes of a model
are trees of lists of sizes; jit and the contents of the functions are left
out (Cache.v, Grad.v). The rules of jax (`jax.jacfwd`, `jax.jacrev`
and `jax.grad` without `holomorphic=True`) are those of its documentation and
sources; they are not part of the repository.

**`Draws.v`** Model of the random initial parameters: which keys `compile` hands to
`jax.random.normal`.  Everything in /repo/parametricmatrixmodels:
modules/bias.py L204-248, modules/constant.py L155-224, modules/prelu.py
L136-191, modules/einsum.py L690-775 (also used by modules/matmul.py L151-155),
modules/affinehermitianmatrix.py L210-253, modules/affinetensor.py L164-209,
modules/lowrankaffinehermitianmatrix.py L215-259,
modules/expectationvaluesum.py L210-273, modules/transitionamplitudesum.py
L211-273, sequentialmodel.py L124-150, nonsequentialmodel.py L484-526.

Simplifications.  A key is the path along which it was obtained from the key
given to the outermost `compile`: the `i`-th key of `jax.random.split(k, n)`
is `child k i` for every `n` (the keys of splits of different length are not
assumed to differ).  An array that is drawn is described by its key, its
shape and its dtype.  What `get_output_shape` says is an argument (it is the
subject of C16, C50, C53, C65, C68), and so are the shapes inside a graph model.  Modules are values: one object used at several places is
initialised once only by the code (C103) and is not considered here.

**`TrainKeys.v`** The random keys a model is called with, in /repo/parametricmatrixmodels.

In training they come from the loop of Train.v (training.py L333, L1068);
here: the keys of the modules inside a model called with one key,
sequentialmodel.py L303-304 (one key of `jax.random.split` per module, in the
order of the leaves), applied again in nested models.  Models of graphs hand
their key on unchanged (nonsequentialmodel.py L894, C20).

**`Signals.v`** Interrupting a training with Ctrl-C (SIGINT) or SIGTERM, in
/repo/parametricmatrixmodels/training.py L96-110 (GracefulKiller), L511-512,
L807-811, L829-861 and L1105-1118.

`_train` is compiled by `jax.jit` (L378-396): its Python statements are
executed once, when the function is traced, and only then the compiled loop
runs.  `Model.train` makes the static arguments of `_train` anew in every
call, so every training is traced.  So in a verbose training
`killer = GracefulKiller()` (L512) and `killer.active = False` (L1118) are
both executed before the first epoch.

Simplifications.  A handler that is called while the loop runs is called
before the loop condition is looked at again.  The other reasons to stop are
a function `more` of the number of epochs done (the loop itself: Train.v).
A training that is ended by the default action of a signal counts as
interrupted there.

**`FuncMod.v`** Modules given by a function: /repo/parametricmatrixmodels/modules/funcbase.py
L86-168.

Simplifications.  The function `f` of the subclass is any function from trees
of arrays to trees of arrays or an error; numbers are any type with a zero;
types of numbers are not modelled (the trial run uses float32).

**`Recompile.v`** Output shapes of models inside models, when some of them have been compiled
before: sequentialmodel.py L99-194, nonsequentialmodel.py L372-521, L565-735,
model.py L157-165 of /repo/parametricmatrixmodels.

Simplifications.  A graph model is a chain of its modules in the order of
execution, each with one input (how inputs are put together from several
outputs: NonSeq.v, C12, C16).  A module is a function `o` giving its output
shape (`get_output_shape`, which for modules that are not models does not
depend on what has been compiled), a test `fit` of whether compile accepts an
input shape given the shape it was compiled for before, and that shape; it
is ready once it is compiled.  `proper` is the check of the output shape of a
model (`len(shape) >= 1`).  Random keys: C123.  A compile that fails gives
an error and no model (what it leaves behind: C59).

**`Nested.v`** Sequential models as modules of sequential models
(/repo/parametricmatrixmodels/sequentialmodel.py L226-313).

`Model` is a subclass of `BaseModule` (model.py L48), and the callable of a
model is made of the callables of its modules (L243-245), which may be models
themselves; parameters and states of a model are trees with those of its
modules in place of the modules (model.py L302, L363).  Here the
modules of every model are a list; other containers are Seq.v and C17.
`d` bounds the depth of nesting.

**`ScalerShare.v`** Scaler objects inside mixed scalers
(parametricmatrixmodels/preprocessing/mixed_scaler.py): the entries of
`feature_scalers` are references, `fit` fits the objects in place and returns
them.

Simplifications:
- the other scaler classes enter through what `fit` of one of them makes of
the data (`fit1`: statistics, or an exception) and what `transform` and
`inverse_transform` make of data with such statistics; `K` stands for the
class and the constructor arguments;
- `num` is the number of samples of an array; the annotations of mixed scalers
(`Data`, typing.py L102) are checked as in ScalerTyped.v;
- a scaler whose own `fit` raises keeps its statistics (RobustScaler may have
replaced one of two);
- `fit` of a mixed scaler also replaces `feature_scalers` by a tree with the
same entries in which dictionaries are sorted (L67-72); nothing looks at
the order of a dictionary, so this is left out.

**`ScalerTyped.v`** The methods of scalers as they are called: their annotations are checked
(parametricmatrixmodels/preprocessing/scaler.py L20-31: `__init_subclass__`
wraps the methods of every scaler class with jaxtyping and beartype). A name
of a dimension stands for one number in one call, over all arguments and the
result; a name with a question mark for one number per leaf. A violation is
a TypeError.

Simplifications:
- checked here are the dimensions shared by the leaves (`batch_size`, `n` and
`num_unique`) only; the bodies in Scaler.v and OneHot.v keep structure and
features, so those checks pass, and the types of numbers are not modelled
(one-hot and mixed scalers refuse arrays of integers);
- `y` is None;
- a batch of codes without samples has no width here.

**`NonSeqNames.v`** A graph model with a single module under a chosen name:
`NonSequentialModel({k: module}, {"input": k, k: "output"}, separator=...)`,
/repo/parametricmatrixmodels/nonsequentialmodel.py.

**`Sanity.v`** The check of the continuous features in `ConformalizedModel.calibrate`
(parametricmatrixmodels/conformal/conformalizedmodel.py L361-417).

Simplifications:
- real numbers (no NaN); a leaf is a batch of samples with the shape of one
sample, each sample a flattened row (as in OneHot.v);
- the order in which `jax.random.permutation` with the fixed key of L375 puts
`n` samples is an argument (`order`); so are MAX_N and MAX_K (L373-374);
- `n_unique / n_total > 0.05` is exact (in floats it is the same for at most
MAX_N samples).

**`Axes.v`** Model of the check of the output shape at the end of `compile`:
`if len(self.output_shape) < 1: raise ValueError`, sequentialmodel.py L149-153
and L188-192, nonsequentialmodel.py L444-450, in /repo/parametricmatrixmodels.
The compilation of the modules themselves is left out (C59, C106).

**`Wire.v`** Model of who owns the connections of a graph model: the dictionary object
given to NonSequentialModel.__init__ (nonsequentialmodel.py L256), handed on
by copy (basemodule.py L917-930, get_hyperparameters L959-967, serialize
basemodule.py L755-788, set_hyperparameters L969-978), and read from a file
(model.py L1764-1811), in /repo/parametricmatrixmodels.

**`ModState.v`** Model of how a model reads and writes the states of its modules: get_state and
set_state (model.py L337-397), get_state of graph models (nonsequentialmodel.py
L927-957) and the option update_state of a call (model.py L614-624), in
/repo/parametricmatrixmodels.

**`InfScores.v`** Scores that are not finite in a conformal model
(parametricmatrixmodels/conformal/conformalizedmodel.py L808-814, L1168-1178,
L1356-1369): what division by an uncertainty of zero does to the quantile and
to the intervals.

Simplifications: real numbers with an infinity and a NaN instead of floats; one
output number; the sample enters through its residual (target minus prediction)
and its uncertainty, which is not negative.

**`Reload.v`** Loading into a model that is in use, step by step, with what is left of the
model when a step raises an exception (parametricmatrixmodels/model.py
L157-165, L192-207, L568-577, L1094-1104, L1546-1578, L1639-1741;
modules/basemodule.py L857-892).

Simplifications: the modules are in a list, in the order of jax, so that the
structure of a model is their number; versions are compared after parsing;
the module versions of a model's own entries and `upgrade` are in
Versions.v; compiled functions, which `reset` clears as well, are taken
together with the shapes; the entries "modules", "rng" and "_optimizer_state"
of a model's own hyperparameters, if present, repeat what was set before and
are left out.

**`SavedData.v`** What loading does to the dictionary it loads from
(parametricmatrixmodels/model.py L1660-1741, modules/basemodule.py L857-892).

Simplifications: the modules of a model are in a list, in the order of jax;
of the entries of a model only the modules and "self_serialized" are kept
apart, the others, which are read only, are part of `C`; `upgrade` returns
what it is given (the default, basemodule.py L895-914).

## Where the code disagrees with its documentation or with the properties

Each item names the theorem with the witness where there is one; the others were found while
modelling and are only described.

Small layers (`_autogenerated_activationfuncs.py`, `bias.py`, `constant.py`, `prelu.py`)

- GLU is documented as elementwise and announces the input shape, but halves the last axis
  (`C69_shape_refuted`). OneHot, frexp, packbits and unpackbits change the shape or the structure too.
- Softmax, LogSoftmax and Standardize act along the last axis, which is the batch axis for data with one
  number per sample (`C69_samples_mixed_refuted`).
- AMax, AMin and LogSumExp without arguments can never be evaluated (`C69_reductions_rejected`).
- `Bias.set_params` and `Constant.set_params` do not check shapes (`C70_shapes_refuted`,
  `C70_samples_refuted`, `C71_shapes_refuted`).
- `PReLU.compile` overwrites slopes that were set before (`C73_prelu_refuted`).

Graph models (`graph_util.py`, `nonsequentialmodel.py`)
- Module names beginning with `input` or `output` are mistaken for the reserved keys
  (`C11_inputs_name_refuted`, `C11_output_layer_name_refuted`).
- A module that nothing feeds but that feeds a used module makes the whole network be rejected as
  cyclic (`C10_acyclic_accepted_refuted`).
- The order of the targets of one source is not kept; a trailing separator loses a connection
  (`C08_order_preserved_refuted`, `C08_trailing_separator_loses_connection_refuted`).
- Dictionaries of modules mixing number-like and other keys do not compile or cannot be called
  (`C66_mixed_keys_refuted`, `C12_mixed_keys_refuted`).
- The callable writes into the state object of the caller (L849 `new_state = state`;
  `C15_state_argument_modified_refuted`).
- Every module gets the same random key (`C20_graph_keys_refuted`).
- Sets are used where insertion order is promised; "0" and "00" are different keys with the same index.
- `extend_structure_from_strpaths` chooses list or dictionary by the first path; extending a
  tuple directly inside a non-root tuple fails (`C56_extend_nested_tuple_refuted`); the order of paths matters
  (`C57_extend_order_independent_refuted`); the path "a." creates the key "".

Sequential models and `Model`
- Modules in a dictionary are applied in sorted, not insertion, order (`C18_insertion_order_refuted`).
- Parameters None make the callable of a sequential model raise.
- `pop` with index -1 on a tuple duplicates the rest (`C33_tuple_pop_last_refuted`); item assignment
  on a tuple always raises; inserting under an existing key drops an entry.
- `a + b` extends the list of `a` in place (`C34_list_refuted`).
- Stale functions after recompiling, `set_hyperparameters` or in-place changes
  (`C35_recompile_refuted`, `C35_set_hyperparameters_refuted`, `C35_in_place_refuted`); a changed
  differentiation mode is ignored (`C60_refuted`).
- A failed compile of a compiled sequential model leaves it ready with mixed modules (`C59_refuted`).
- Uncompiled models save but do not load; tuples of modules and ragged lists do not survive a file
  (`C36_uncompiled_refuted`, `C36_file_tuple_refuted`, `C36_file_ragged_refuted`).
- `set_precision` turns integer arrays into floats (`C38_integer_refuted`).

Batching and training
- `autobatch` with recompilation avoidance fails on arrays with one axis (`C21_one_axis_refuted`);
  a batch size of 0 is a ZeroDivisionError; it jits only when avoiding recompilation.
- Splitting with a batch size above the number of rows is a TypeError (`C23_oversized_batch_refuted`).
- Interrupts are only noticed in verbose mode (`C27_quiet_interrupt_refuted`).
- The validation loss is an unweighted mean over batches (`C29_refuted`).
- The complex optimizer counts batches and epochs (`C30_complex_refuted`); the saved state is one
  epoch behind (`C30_resume_refuted`). A callback can change frozen parameters (`C28_callback_refuted`).
  A NaN initial loss leads to zero epochs.
- Validation targets without inputs, validation uncertainties, custom validation losses, missing
  targets and non-positive batch sizes pass the checks (`C31_*_refuted`).
- Loss names beginning with `pseudo_huber` are accepted, relative errors divide by zero at -1e-4,
  `pseudo_huber` works on bare arrays only (`C32_*_refuted`); predictions of the wrong shape are
  broadcast (`C58_refuted`).

Preprocessing
- `RobustScaler.transform` raises for two or more features (`C39_robust_refuted`); `fit` with scalar
  options on trees raises ValueError; `MinMaxScaler` with range (None, None) on trees too.
- `OneHot.fit` sorts every column on its own, so combinations are mixed up (`C41_refuted`).
- The annotation of `OneHot.transform` (onehot.py L67) has one `num_unique` for all leaves, and annotations of scalers are
  checked, so two categorical features with 2 and 3 values cannot be encoded together (`C41_categories_refuted`).

Conformal prediction
- Stratified bias corrections only work for outputs of sample shape (1,) (`C74_two_outputs_refuted`).
- Input uncertainties are not mapped over the samples: wrong shapes or mixed samples
  (`C76_shape_refuted`, `C76_samples_refuted`).
- `adam` never advances its counter within an epoch, and `complex_adam` advances it once too often per
  epoch (training.py L175, L268, L1046-1049): bias corrections and schedules are wrong unless there is one
  batch per epoch, respectively after the first epoch (`C82_batches_refuted`, `C82_epochs_refuted`).
- Clipping acts on real and imaginary parts separately and so changes the direction of complex gradients
  (`C84_direction_refuted`, `C85_phase_clipped_refuted`).
- Distances are added as a column (n, 1) to outputs of any rank (`C75_distance_refuted`); models with
  outputs of different shapes raise TypeError (`C75_output_shapes_refuted`); no selected continuous
  input raises ZeroDivisionError (`C77_division_by_zero_refuted`).
- A selected continuous feature that is constant in the training data makes calibration fail
  (`C81_constant_feature_refuted`), as do categorical features of several numbers
  (`C81_wide_category_refuted`); a category not seen in training counts one half
  (`C81_new_category_refuted`); training samples have positive distances, larger than those of some
  samples between them (`C80_training_samples_refuted`).
- For alpha < 1/(n+1) the level is clamped to 1 silently (`C42_refuted`).
- Recalibrating keeps cached quantiles (`C44_refuted`).
- `weighted_quantile` sorts by weight (`C46_refuted`) and raises for arrays of more than one
  dimension (`C46_matrices_rejected`), which is how it is called.
- Calibrating with label uncertainties always raises; the stratified bias appends `[[0.0]]`;
  `from_file` does not unpack the stored name.

Modules
- `Eigenvalues.get_output_shape` with num_eig None indexes the tree (`C50_refuted`); the `name` of
  Eigenvalues and Eigensystem lacks the f-prefix.
- `Einsum`: a scalar first operand is dropped (`C51_accepted_refuted`); several parameter arrays
  cannot be announced (`C65_announced_refuted`); fewer strings than arrays pass compile and fail in
  the call; a triple with too many input strings is a KeyError.
- `MatMul`: digit keys break path_order (`C52_product_refuted`), 26 or more operands are transposed
  (`C52_many_refuted`), more than fifty are rejected (`C52_accepted_refuted`); `(None, k)` is refused for
  a last parameter contrary to the documentation; the separator is lost on copying
  (`C37_matmul_refuted`).
- `Reshape`: None targets announce None, negative sizes pass, tuple promotion (`C53_*_refuted`);
  `Flatten` of scalars announces a float.
- `ConcatenateLeaves` counts negative axes from the batched array (`C54_refuted`) and forgets
  path_order and separator when copied (`C37_concatenate_refuted`).
- `grad_input(return_state=True)` and `grad_input(update_state=True)` give states with an additional
  axis of the number of samples (`C87_input_state_refuted`), and with `max_batch_size` the second batch
  runs on such a state (`C86_input_state_refuted`). The choice between forward and reverse mode adds up
  the dimensions of all shapes instead of multiplying them (described only; no effect on values).
- `LinearNN` announces `(out_features,)` also for activations that change the size
  (`C89_glu_refuted`), keeps its old modules when `out_features` is changed (`C89_resized_refuted`),
  and refuses samples without axes (`C88_scalar_rejected`).
- `LowRankAffineHermitianMatrix` omits its rank from the hyperparameters (`C37_lowrank_refuted`).
- `AffineHermitianMatrix` with complex features is not Hermitian (`HermExamples.v`).
- `LinearNN` loses its activation, complex `Bias` and unserialisable activation arguments are lost
  on copying (`C37_*_refuted`); the constructor of `Bias` checks the first leaf only.
- `AffineObservablePMM` ignores the supplied bias (`C55_supplied_bias_refuted`); both composite
  modules drop appended modules at the next compile and cannot be added (`C67_*`), and announce None
  or nothing when sizes are left open (`C68_*_refuted`). With `num_secondaries` left at its default 1
  supplied observables with more secondaries are rejected; `AffineEigenvaluePMM` demands matrix_size
  even when Ms determines it.

- Scalers of lists or tuples do not survive a file: arrays of one shape are stacked so that the loaded
  scaler refuses the data it was fitted to, different shapes cannot be saved (`C91_file_refuted`,
  `C91_ragged_refuted`); a MixedScaler of a list of scalers cannot be loaded, a tuple becomes a list
  (`C91_mixed_refuted`, `C91_tuple_refuted`); a MinMaxScaler with array bounds cannot be loaded
  (`C91_bounds_refuted`). In memory all of them survive (`C90_memory`).

- A conformal model whose calibration is refused is left half changed: flags of the wrong structure with
  a bias correction make it unusable until a calibration succeeds (`C93_refuted`), unusable training data
  mix new scales with the old k-d tree and scores (`C93_changes_refuted`), and then the model can no
  longer be copied (`C92_failed_calibration_refuted`).
- `ConformalizedModel.from_file` leaves the name as an array without axes (`C92_name_refuted`; also the
  version fields), and does not pass `strict_package_version` on to the wrapped model.
- After a calibration without training data, `input_sensitivity` still uses those of the previous one
  (`C94_input_refuted`).

- A frozen module inside a nested model is trained if any other module of that model is trainable
  (`C95_refuted`); freezing the whole nested model works (`C95_freeze_unmixed`).
- `set_params` of a model checks the structure at the outermost level only: a part refused by a module, or
  a misfit inside a nested model, leaves the earlier modules with the new values (`C96_refuted`).

- The check of the input of a model accepts arrays with different numbers of samples, and single numbers
  without an axis of samples (`C98_refuted`).
- `tree_util.all_close` takes arrays of different shapes for close if they can be broadcast and raises
  otherwise; `all_equal` raises for equal numpy arrays (`C99_refuted`).

- `LowRankAffineHermitianMatrix.set_params` does not compare the numbers of weights and vectors of a module
  without parameters, nor does `compile`; the first call fails (`C100_low_rank_refuted`).
- A compiled `ExpectationValueSum` or `TransitionAmplitudeSum` accepts observables of another matrix size
  and then fails when called (`C100_sum_refuted`).

- `train(resume=True)` starts from the parameters kept in the optimiser state: parameters set (or converted
  by `set_precision`) after the last training are silently replaced by the old ones (`C102_refuted`).

- A module object that occurs twice in a model: `set_params` and `train` write it twice and keep one of the
  two parts, so `get_params` does not return what was set or trained (`C103_refuted`); the value model of
  `Params.v` (no sharing) is exact for all other models (`C103_unshared`).
- Copying (or saving and loading) such a model gives two separate modules, so the copy behaves differently
  (`C104_refuted`).
- A `ConformalizedModel` restored in memory with `deserialize(m.serialize())` shares the dictionary of
  quantiles with the original; asking one changes the answers of the other (`C105_refuted`).

- A module object that occurs twice in a sequential model is compiled twice; a module that keeps the shape it
  was compiled for (`Flatten`) keeps only the second one (`C106_refuted`).

- `ProgressBarSingleton.start` forgets the length of the text in the line: the bars of the epochs in `train`
  overwrite each other and leave remnants such as `(0s))` (`C107_refuted`); `reset` forgets it before it clears
  the line (`C107_reset_refuted`). While the progress is 0 the remaining seconds are negative (`C108_refuted`).

- `ConformalizedModel.parameter_sensitivity` and `input_sensitivity` test the tree of flags for truth, and a
  container of `False` is true: with the term switched off they raise, or answer with the normalisation of an
  earlier calibration (`C109_off_refuted`, `C109_off_stale_refuted`). Without training data the input and distance
  terms are left out silently (`C109_nothing`), and a model that was never calibrated reports uncertainty zero
  (`C109_uncalibrated`).

* C110: `Einsum.compile` stores the shape before it checks anything: after a failed compile the module reports to be
  ready, calls fail, and the right shapes are refused (`C110_ready_refuted`, `C110_retry_refuted`). With several drawn
  arrays of parameters compiling again for the same shapes fails (`C110_again_refuted`). Output letters that are
  repeated or occur in no operand are only found when the module is called (`C110_output_refuted`). An integer
  output_shape of MatMul fixes the first size only.

* **Counts of trainable floats assume complex matrices** (C112). With a real array for `Ms` or `Ds` the report of
  AffineHermitianMatrix, ExpectationValueSum and TransitionAmplitudeSum is n² per matrix although a real symmetric
  matrix has n(n+1)/2 numbers and training keeps it real (`C112_real_refuted`). LowRankAffineHermitianMatrix counts
  two floats per entry of `us` and one per entry of `ls` whatever their dtypes, and set_params accepts any dtype.
- The coverage guarantee that the documentation of ConformalizedModel states (L49-51, L104-110) does not hold for the procedure as written when two or more sensitivities contribute (the default with training data) or when a bias is corrected: normalisations and biases are fitted to the calibration data that also give the scores. Of three samples only one is covered at alpha = 1/3, although two are promised (C113). The documentation names uncertain labels as the only exception. With one sensitivity the normalisation has no influence on the intervals at all.

- `model["sub", "layers", 0] = m` resets the outermost model only: the nested model `sub` keeps its
  shapes and counts as compiled (`C114_reset_refuted`, `C114_kept`); a nested graph model then skips
  compilation altogether if the new module is ready.
- `Model.__getitem__` and `__setitem__` are annotated with `jax.tree_util.KeyPath`, but entries of real
  key paths (`DictKey`, `SequenceKey`) are used as subscripts: reading always fails and assigning to a
  dictionary adds an entry under that object (`C114_jax_paths_never`, `C114_jax_paths_added`).
- `NonSequentialModel` overrides `is_ready` but not `_get_unready_reason`: "Unknown reason."
  (`C115_graph_refuted`).

- `strfmt_pytree` indents the lines of nested containers by their absolute depth and again by every
  enclosing container, so a nested closing bracket never stands below its opening bracket
  (`C116_nested_never`); `max_leaf_chars` below 3 gives lines longer than the limit, since the slice end
  becomes negative (`C116_limit_refuted`). `BaseModule.__repr__` of a frozen module ends with a stray
  parenthesis (`C116_balanced_refuted`).

- **Resuming undoes `set_params`, for frozen modules too** (C117): `train(resume=True)` starts from the
  parameters stored in the optimiser states (training.py L1275-1284), not from those of the modules, and
  writes them back into every module, trainable or not (model.py L1242). Loading pre-trained parameters
  into a trained model, freezing them and training on therefore loses them silently (`C117_refuted`).

- `BaseModule.__init_subclass__` says that it wraps all methods of all subclasses with the run-time type
  checker, but it returns early for abstract classes, so that methods defined in `Model`, `ActivationBase`
  or `FuncBase` without an explicit decorator are never checked (`C118_refuted`). The test for required
  constructor arguments goes by the name `self` (`C118_names_refuted`).

- `ConformalizedModel.save("conf")` writes `conf.npz`, but `ConformalizedModel.from_file("conf")` opens `conf`:
  FileNotFoundError, or another file. `Model` and `Scaler` add the suffix when loading, but only to strings:
  `save(Path("m"))` writes `m.npz` (numpy adds the suffix) and `load(Path("m"))` opens `m` (`C119_refuted`,
  for every such name `C119_lost`).
- `Model.deserialize` resets the model before it looks at the version of the package, so a file refused
  because of `strict_package_version=True` leaves the model not ready and without optimiser states
  (`C120_refuted`). `ConformalizedModel.deserialize` does not hand `strict_package_version` on to the model
  inside (conformalizedmodel.py L1638), so that data with an older model inside are loaded in spite of it
  (`C120_conformal_refuted`); `serialize` writes one version everywhere, so files it wrote are not
  affected (`C120_conformal_partial`).
- `Model.astype`/`set_precision` converts the modules but leaves the optimiser states alone (model.py
  L957-1029), so that a following `train(resume=True)` brings the old precision (and the old values) back
  (`C121_refuted`, in general `C121_comes_back`).
- `Model.train` of a model without any trainable parameter raises `ValueError` from inside jax
  (`max()` of an empty sequence), whatever the number of epochs: `jax.grad` is called with no argument to
  differentiate by (training.py L1608-1622, `C27_nothing_to_train`). What jax does here is read off its
  documentation and sources as remembered; it could not be run.

- **Default gradients by complex parameters** (C122): `grad_params` without `fwd` goes forward if the input is
  smaller than the output, but `jax.jacfwd` refuses complex numbers, which is what the matrix modules have by
  default (affinehermitianmatrix.py L243-249). So a PMM with one input and two outputs raises `TypeError`, and
  because the batched function is kept (see C60), `grad_params(X, fwd=False)` afterwards still raises it
  (`C122_refuted`, `C122_stuck`) until another `max_batch_size` is given (`C122_recover`). The parameter
  sensitivities of `ConformalizedModel` use the same function and default (conformalizedmodel.py L845-852).
- The sizes compared for this are wrong: `jax.tree.reduce` looks into the shape tuples, so the sizes of an array
  are added, not multiplied (model.py L700-709): inputs of shape (10, 10) count as 20
  (`C122_direction_refuted`). Only the speed depends on it, apart from the above.

- `AffineTensor.compile` with `real=False` adds `1j` times a *complex* normal array to a real one
  (affinetensor.py L193-209): the real parts have mean square 3/2, the imaginary parts 1/2, in units of
  the squared magnitude (`C123_size_refuted`); all other classes give 1 and 1.
- Validation calls the model with the key from which the following training keys are split
  (training.py L581, L989, L1068): in a sequential model `[a, [b, c]]` the module `b` gets in the first
  validation exactly the key of `a` in the first training step (`C124_validation_refuted`).
- Interrupts: `_train` is compiled by jax, so that `killer.active = False` (training.py L1118) is executed
  before the first epoch. A second Ctrl-C during training has no effect (`C125_second_refuted`), and since the
  handlers are never put back, SIGINT and SIGTERM have no effect any more after a verbose training (the
  default) (`C125_after_refuted`, `C125_later_quiet_never`). `signal.signal` also makes verbose trainings fail
  outside the main thread (`C125_thread_refuted`). That tracing executes the Python statements before the
  compiled loop runs is how jax works; it is not proved.
- `FuncBase.get_output_shape` makes a trial run with one sample (funcbase.py L135-144): functions that
  squeeze announce a wrong shape (`C126_squeeze_refuted`), functions that mix samples pass compile and fail
  later (`C126_mixing_refuted`).
- `get_output_shape` of a compiled model returns the output shape it was compiled with, whatever it is asked
  (sequentialmodel.py L180, nonsequentialmodel.py L724; `C127_asked_refuted`). A graph model asks all its modules
  for their output shapes before it compiles them (L443-446). So a sequential model that was compiled for another
  shape and is put into a graph model makes the modules behind it compile for the wrong shape
  (`C127_refuted`), and the graph model announces a wrong shape (`C127_announced_refuted`).
* C128: the best parameters are noted (L1005-1025) before the callback changes them (L1039). A callback that
  projects the parameters onto an admissible set therefore does not make the trained model admissible, and with
  `epochs=1` it does nothing. It is called once per epoch, while its documentation says "after each training step".

* C130: `Model(rng=0)` and `train(batch_rng=0)` use the same stream of keys: the key that shuffles the validation
  data in the first epoch is the key of the first training step, and so on. (The init key is split at L1068, the
  batch key at L885 and L978, with nothing that tells the two apart.)

* C131: the connections of a graph model name modules of a list by position, and `insert_module`, `prepend_module`
  and `pop_module_by_index` leave the connections alone. With connections input-1-2-output over four modules,
  prepending one makes the model call modules 0 and 1, removing the unused module 0 makes it call 2 and 3
  (counted as before the edit), without an error. With a dictionary this does not happen.
* C132: `s = StandardScaler(); MixedScaler({"a": s, "b": s})` fits the one object twice and scales both parts by the
  statistics of `b`; nothing warns. Fitting a second mixed scaler that contains `s` changes the first one.
- A module of a graph model may be called `output_layer`: the model then returns `{'output_layer': <input of the module>,
  'output': <its output>}` (C133). Names with the separator or the empty name are accepted and never run; `input`
  and `output` are refused by the constructor only.

- The check of continuous features in `ConformalizedModel.calibrate` indexes every leaf with `[:MAX_N, :MAX_K]`
  (L377-382), so data with a leaf of one number per sample (one axis) cannot be calibrated with the default
  arguments: IndexError (C134). With at most ten samples the warning is always given for features said to be
  continuous (the default), whatever the data.

- The check that a model has an output with an axis besides the samples takes `len` of the shape, which for a
  container is the number of entries: outputs `{"a": ()}` pass (C135_refuted). It comes after
  `self.output_shape` is set: a new model of modules that are ready by then raises and is ready nevertheless
  (C59_no_axes_refuted). NonSequentialModel sets both shapes before it compiles its modules: with modules that
  were ready before (e.g. a Bias with parameters of another shape) it is ready after a failed compile
  (C59_ready_modules_refuted).
- `copy()` of a NonSequentialModel ("a deep copy") hands on the connections dictionary itself: an edit in place of
  the copy's connections rewires the original (C136_refuted). The constructor keeps the caller's dictionary too
  (C136_constructor_refuted).
- NonSequentialModel.get_state gives None for modules that are not ready, and set_state hands that None to
  `set_state` of the module: an unconnected module with a state loses it, or raises, after a call with
  update_state, a training or loading (C137_put_back_refuted, C137_none_refuted).
- A calibration sample with uncertainty zero that is predicted exactly makes every interval NaN
  (C138_exact_sample); one that is not predicted exactly does so for alpha < 2/(n+1) (C138_small_alpha). No warning.
- Training in two parts is not training at once (C139). The returned optimiser state is a
  checkpoint from before the counter was advanced (training.py L1005-1049), so a resumed training
  repeats one value of the counter, in the bias correction and in the learning rate schedule; epochs
  are counted from 0 again (L1712) for losses given as callables; and a resumed training starts at
  the best epoch of the part before, not at the last.
- A load that fails is not undone (C140): model.py L1660 resets the model before anything is
  checked, and L1682 replaces the modules before they are filled. The result is not ready, but
  compile, which train calls by itself (L1094-1104), makes it usable with fresh modules in it.
- `Model.deserialize` pops "trainable" from the dictionary it is given (model.py L1728-1735), at every depth
  (`C141_refuted`); harmless for loading again (`C141_again`).
- Noticed while reading, neither modelled nor run: the warning about a too large validation batch prints the size
  that has just been replaced (training.py L1672-1678); `is_single_leaf` prints a line whenever the answer is no
  (tree_util.py L119); the wrapper for batched calls is kept while `max_batch_size` and `avoid_recompilation` stay the
  same, so that a later `verbose`, `extra_info` or `newline` has no effect (model.py L592-613); the `name` of a
  LowRankAffineHermitianMatrix says `AffineHermitianMatrix` and leaves out the rank; six error messages of the affine
  modules print `{input_shape}` literally; `+` of graph models always raises NotImplementedError
  (nonsequentialmodel.py L997).

## Disagreements between model and code

None known. Deliberate differences are the simplifications listed per model file; where the code's
exception class depends on run-time type checking (beartype/jaxtyping) the model follows the explicit
checks, and whether an int passes for a float there is left open as a parameter (`tower`).
