INTRO = r'''
# Formal model of pyPMM in Rocq

All sources are in `rocq/theories` (logical name `Verif`, Coq 8.16.1).  This file is
generated by `tools/make_design.py` from `tools/design_text.py`, `MANIFEST.json` and the
output of `Print Assumptions`.

## How the code is modelled

The model is shallow and follows the Python source function by function.  A Python function
becomes a total Gallina function with the same branches in the same order; a raised exception
becomes `Err e` in the type `result` (classes are kept, messages are dropped); a loop becomes a
structural recursion or a fold.  Loops without an evident bound run on fuel and return the
explicit error `OutOfFuel`, which the theorems exclude.  What the code calls but does not define
(module callables, random number generation, uuid strings, user callbacks and losses, LAPACK,
JAX kernels) is an argument of the model functions, and the theorems quantify over it.
Every definition carries a comment with the file and lines it follows and what it leaves out.

Files: `X.v` is the model, `XSpec.v` the vocabulary in which properties are stated where the
property needs any, `XProofs.v`/`XMain.v`/... the lemmas, and `Props_X.v` holds only the property
theorems, examples that meet their hypotheses, and `Print Assumptions`.

Names: `C12_...` is a theorem about property C12.  `_partial` proves it on a restricted class;
`_refuted` is an existence statement whose witness is a counterexample; `_always` (or
`_always_refuted`) is the universal version of a refutation, showing that the failure is not
confined to the witness.  A property that is false of the code in general has status "partial" in
`MANIFEST.json`, with the refutation and with what does hold.

Mutation testing: `tools/mutate.py` applies the edits in `seeded/mutants.jsonl` to a scratch copy,
replaces proofs that break by `Admitted` there and reports which property theorems are lost; the
results are in `seeded/LOG.jsonl`.
'''
MODEL_FILES = ['Base','TreeUtil','Connections','Resolve','NonSeq','Seq','Batch','Train','TrainArgs','Loss','Edit','Cache','Modules','Serial','Precision','Scaler','OneHot','Conformal','Eigen','Herm','NdArray','Reshape','Einsum','MatMul','Composite','Layers','Strata','Uncertainty','Shapes','Distance','Adam','Grad','Linear','ScalerFile','ConfState','Params','TreeEq','MatMods','TrainModel', 'Share', 'ConfShare', 'Progress', 'EinsumObj', 'Dof', 'Cover', 'Access', 'Show', 'FineTune', 'Subclass', 'Files', 'Versions', 'PrecTrain', 'Modes', 'Draws', 'TrainKeys', 'Signals', 'FuncMod', 'Recompile', 'Nested', 'ScalerShare', 'ScalerTyped', 'NonSeqNames', 'Sanity', 'Axes', 'Wire', 'ModState', 'InfScores', 'Reload', 'SavedData']

d('C01 C02', '`tree_util.py` `getitem_by_strpath`, `setitem_by_strpath` on an inductive type of PyTrees (leaf, None, dictionary as association list in insertion order, list, tuple) with real splitting of path strings (`TreeUtil.v`).', 'induction on the components of the path; for locality, on the first component where two paths part. The specification (`TreeSpec.v`) walks the tree along lists of keys and never mentions the code\'s string handling.')
d('C03', '`getitem_by_strpath` with and without `allow_early_return`.', 'induction on the path; the remainder is described as the part of the path below the last existing container.')
d('C04', '`extend_structure_from_strpaths` with fill values, choice of list or dictionary, padding, conflicts and restoring of tuples.', 'invariant over the list of paths already handled: each reads its value, old leaves read the same.')
d('C56 C57', '`extend_structure_from_strpaths` (see C04).', 'refutations by computation on a witness. Kinds: an inductive relation between base and current tree, indexed by the set of recorded addresses, kept by every walk (a tuple that is entered becomes a list and is recorded) and shrunk by every restored tuple (`ExtendKind.v`). Order: writing two paths that do not get in the way of each other commutes up to the order of dictionary entries; induction on the permutation; that relation implies Python equality (`ExtendOrder.v`).')
d('C05', '`make_mutable` as iteration of one-level conversion.', 'nested induction on trees; result contains no tuple and has the same leaves at the same paths.')
d('C06', '`concretize_paths` level by level, uuid4 as an injective source of new names.', 'invariant per level: no two paths share a prefix that ends one of them; the result is described path by path (`ConcretizeSpec.v`).')
d('C07 C08', '`partition_connections_by_tree`, `concretize_connections`, `place_connections_in_tree` (`Connections.v`).', 'the placed dictionary is described exactly as a set of (source, slot) pairs (`SlotProofs.v`, `PlaceProofs.v`); multiset equality of connections before and after. Order and trailing separators are refuted by witnesses.')
d('C09 C10', '`resolve_connections` (two depth-first searches, in-degrees, queue loop) and `validate_resolution` (`Resolve.v`).', 'loop invariants over both work lists; the result is topological; acceptance is characterised by reachability (`ResolveSpec.v`) with a counting argument for the queue loop.')
d('C11', 'the same functions, and renaming of the names at the top level as an injective map (`RenameSpec.v`).', 'every step from the connection dictionary to the output commutes with renaming: strings (`RenameStr.v`), trees (`RenameTree.v`, `RenameExt.v`), connections (`RenameConn.v`), execution and shapes (`RenameNet.v`); failures are equal too. Two witnesses show that names beginning with the reserved keys change the meaning.')
d('C12 C13 C14', '`NonSequentialModel._get_callable` and everything `compile` computes for it (`NonSeq.v`), modules as arbitrary functions of parameters, data, state and key.', 'the callable is shown to compute the unique solution of the dataflow equations of the network the user wrote (`NonSeqSpec.v`); soundness by induction over the execution order, completeness from topological order; the two directions give uniqueness.')
d('C15', 'the state object of `_get_callable` L849 as an explicit alias: the function returns the caller\'s object.', 'witness for the mutation; frame lemma for the parts that are not executed.')
d('C16', '`_get_shape_progression`, `compile` and `get_output_shape` of both model kinds.', 'the shape pass is the forward pass of another interpretation of the modules, so the dataflow theorem is used twice and related by a simulation.')
d('C17 C18 C20', '`SequentialModel._get_callable` with JAX\'s flattening of module trees (sorted dictionary keys), `flatten_up_to`, `unflatten` and the leaf predicate of L323-326 (`Seq.v`).', 'the reduction over the flattened tree equals the fold over the list of leaves; order lemma for sorted keys; key splitting as an arbitrary function.')
d('C19', 'both model kinds together.', 'a chain network is shown to compile (C66) and its dataflow equations are solved by the fold of the sequential model, and conversely.')
d('C21 C22 C23', '`autobatch`, `batch_leaves`, `pytree_split` and friends over lists of rows (`Batch.v`).', 'list arithmetic with quotient and remainder; the padding of the last batch is shown to be cut off again.')
d('C24 C25', '`random_permute_leaves` and the batch loop of `_train`; `jax.random.permutation` as a permutation depending on key and length.', 'permutation lemmas; the samples used in an epoch are a permutation of the data.')
d('C26 C27 C28 C30', 'the loop of `_train` as a state machine over arbitrary epoch results, optimizer updates and callbacks (`Train.v`).', 'invariants over iterations; exact characterisation of the iteration at which the loop stops.')
d('C29', 'validation loss over rationals.', 'algebra for equal batches; witness for a short last batch.')
d('C31', 'argument handling of `train` and `Model.train` as a decision procedure (`TrainArgs.v`).', 'case analysis against the documented rules, stated separately; witnesses for the accepted nonsense.')
d('C32 C58', '`make_loss_fn` and the tree arithmetic it uses, over exact complex numbers with one extra element for everything not finite (`Loss.v`).', 'each loss equals its formula written with sums over rows (`LossSpec.v`); witnesses by computation over rationals embedded in the reals.')
d('C33 C34', 'editing methods on a heap of containers (`Edit.v`).', 'refinement to operations on lists of pairs; histories by induction; aliasing of lists by a heap witness and its universal version.')
d('C35 C59 C60', 'the caches of `Model` (callable, gradients, autobatch wrappers, jit traces) as a state machine (`Cache.v`).', 'invariants over histories of actions describing which modules, parameters and mode an evaluation uses; witnesses for stale caches.')
d('C36 C37', '`serialize`/`deserialize`/`copy` of modules class by class (`Modules.v`) and of nested models (`Serial.v`), and the file round trip of containers.', 'per class: reachable objects copy to objects with the same attributes; models: nested induction. Witnesses for lost attributes.')
d('C38', 'data types, `set_precision`, `astype`, `safecast` (`Precision.v`).', 'case analysis on spellings; induction over trees and nesting.')
d('C39 C40', 'the four scalers over real numbers with an extra element for division by zero (`Scaler.v`).', 'real algebra, lifted over trees; statistics over lists.')
d('C41', '`OneHot` fit/transform/inverse over any lawful numbers (`OneHot.v`), called through the check of their annotations (`ScalerTyped.v`).', 'sorted-list lemmas; the exact condition on the rows is found and shown necessary.')
d('C42 C43 C44 C45 C46', 'conformal calibration, quantiles, intervals, cached quantiles, robust normalisation and weighted quantile over real numbers (`Conformal.v`).', 'counting argument on sorted scores for coverage; monotonicity; state machine for the cache; witnesses over reals decided by hand.')
d('C47 C48 C61 C62 C63', 'affine Hermitian, low-rank and tensor modules, smoothing, expectation and transition sums over matrices of a closed field with conjugation (`Herm.v`, mathcomp).', 'matrix algebra; conjugation by unitary matrices; rank bound.')
d('C49 C50', 'eigenvalue selection with Python slicing and the three eigen modules (`Eigen.v`).', 'the selected indices are characterised by order statistics; shapes by tree maps.')
d('C51 C64 C65', 'string processing, dimension maps, compile and call of `Einsum` (`Einsum.v`) with a definitional einsum over any ring.', 'string lemmas for the fresh batch letter; the batched einsum at sample b is the user\'s einsum on sample b.')
d('C52', '`MatMul` on top of `Einsum` (`MatMul.v`).', 'the generated subscripts are shown to denote the matrix product by induction on the number of operands; the specification multiplies matrices of entries over a semiring.')
d('C53 C54', '`Reshape`, `Flatten`, `TreeFlatten`, `TreeKey`, `ConcatenateLeaves` on row-major arrays (`Reshape.v`, `NdArray.v`).', 'row-major index arithmetic lifted over trees; witnesses for the announced shapes that are wrong.')
d('C55 C67 C68', 'constructors, `compile`, `get_output_shape`, appending and adding for the two composite modules (`Composite.v`).', 'invariant over histories of compile calls: the modules are those built from the arguments; the supplied bias is shown irrelevant by simulation.')
d('C66', 'everything `NonSequentialModel.compile` computes.', 'each step is shown to succeed on well-formed networks (`ExtendOk.v`, `CompileOk.v`), and acceptance by the resolver is translated to reachability in the network the user wrote.')
d('C69', '`ActivationBase` with the kinds of functions in the generated file: entry by entry, along the last axis, GLU and reductions over everything, and the run-time check of the batch axis (`Layers.v`).', 'entries of the result are computed from the row-major position arithmetic; a row of the last axis never crosses a sample once there is a feature axis.')
d('C70 C71 C72 C73', 'constructors, `compile`, the callables and `set_params` of `Bias`, `Constant` and `PReLU` (`Layers.v`).', 'broadcasting a parameter of the sample shape (or one number) against a batch is computed entry by entry; trees are handled by relating leaves; PReLU by an invariant over arbitrary histories.')
d('C74', 'the argument check, fitting and application of bias corrections in `ConformalizedModel.calibrate` and `__call__` (`Strata.v`): strata from selected features, unique rows, first matching row, medians, the extra row of zeros.', 'medians are characterised by counting and shift with the data; unique rows give one index per stratum, so the rows picked by an index are the samples of the stratum; trees by relating leaves.')
d('C75 C76 C77', '`uncertainty_heuristic`, `parameter_sensitivity`, `input_sensitivity` and the accumulation over output leaves (`Uncertainty.v`): gradients are arguments, broadcasting, sums over trailing axes, the map over samples, counting, masks, interquartile ranges, normalisation, the column of distances.', 'sums over index tuples are related to row-major sums; the leaves of gradients, inputs and flags are put side by side in one tree; the three terms are added one after the other.')
d('C78', '`get_shapes`, `has_uniform_leaf_shapes`, `uniform_leaf_shapes_equal` and `shapes_equal` with all kinds of axes (`Shapes.v`).', 'Python indexing and slicing are characterised by positions; agreement is symmetric and transitive, so comparing with the first leaf compares all pairs.')
d('C79 C80 C81', 'the ranges, encoders, k-d tree and cutoff of `ConformalizedModel.calibrate`, `_prepare_data_for_kdtree` and `distance_sensitivity` (`Distance.v`); the k-d tree is a list of points queried exactly and refuses numbers that are not finite.', 'the L1 distance of concatenated rows is the sum over leaves; scaled one-hot codes of different seen categories are 1 apart; points of the tree are represented by training samples; quantiles, means and minima commute with the division by the number of features.')
d('C82 C83 C84 C85', 'the arithmetic of `adam` and `complex_adam` and `make_schedule` (`Adam.v`) on top of the states of `Train.v`: arrays are lists of entries, complex numbers pairs, real arithmetic', 'the moments are weighted sums of the history (induction over the updates), which gives the published formula (`AdamSpec.v`: decaying averages written as sums); the bound on steps comes from the invariant m^2 (1-b2)(b2-b1^2) <= (1-b1)^2 b2 v of all reachable states, kept by one complete square; phases and real gradients by simulation entry by entry')
d('C86 C87', '`grad_input` and `grad_params` (`Grad.v`) on top of `autobatch` of `Batch.v`: `vmap` over samples stacks gradients and states, `jacfwd`/`jacrev` are function arguments', 'the specification says what a derivative may depend on (`GradSpec.v`: values of the function; existence; row by row); the vectorised gradient of a model without arrays in its state is shown to be samplewise, so the theorem on batching applies; the extra axis of states by following a leaf through stacking')
d('C88 C89', 'LinearNN (`Linear.v`): the list of modules built at the first compile, the compile loop of sequential models, set_params and the call, with the modules of `Reshape.v`, `MatMul.v` and `Layers.v`', 'the subscripts generated for this case are computed with symbolic sizes (`ab,cb->ca`), which gives acceptance as well as the values (`LinearSpec.v`: the sum written out); the trees around the array are handled by the theorems on Flatten')
d('C90 C91', 'saving and loading of scalers (`ScalerFile.v`): attributes, `serialize`, `deserialize` (the type checks of its arguments included), what `numpy.savez` makes of each python value and what `load` makes of it again', 'a relation between a scaler and its loaded version (numbers may have become arrays without axes, shapes arrays of numbers) that serialisation keeps by induction over the nesting, and that `transform` and `inverse_transform` cannot see.')
d('C92 C93 C94', 'conformal models as objects (`ConfState.v`): all attributes, `calibrate` statement by statement as a program that changes them and may fail at any point, the calls, quantiles (with their cache), sensitivities, name, serialisation and files; the numerical work (sensitivities, k-d tree, quantiles, bounds, biases) are arguments', 'C92: an invariant of histories (the k-d tree and the encoder are functions of the stored training data, so that rebuilding them gives the same), and a relation between object and copy that every call preserves and cannot see; C93: execution up to the failing statement; C94: agreement of two objects on more and more attributes, stage by stage.')
d('C95 C96 C97', 'models as trees of modules and models (`Params.v`): `get_params`, `set_params` (calls one after the other until one fails), the `trainable` property and its setter, the flags given to training, `get_num_trainable_floats`; what a module itself does is an argument', 'induction over nested models; a predicate `parts` says which part of a tree of parameters belongs to which module; refutations run the model on modules with one number.')
d('C98 C99', '`all_equal`, `all_close` and the check of the data in every call (`TreeEq.v`); shapes are trees of numbers, as jax sees tuples, so that the comparison is modelled on what it really compares', 'a loop over the leaves of trees of the same structure is a relation of trees; the encoding of shapes as tuples is injective except for empty tuples.')
d('C100 C101', 'the five matrix modules from construction to use (`MatMods.v`): `compile` and `get_output_shape` on trees of shapes and the shapes in the callables, with constructors, `set_params` and hyper-parameters of `Modules.v`; entries of arrays are opaque', 'an inductive description of all histories of a module and the shape it was last compiled for (`MatModsSpec.v`), and per class an invariant that ties the shapes of the parameters to that shape.')
d('C102', '`Model.train` around the training loop of `Train.v` (`TrainModel.v`): which optimiser states are handed over, what is stored afterwards, and all other methods that touch parameters, flags, states or the optimiser state', 'an invariant of histories (the optimiser state holds the parameters of the model) that everything but `set_params` keeps; the refutation trains the small model of `Props_Train.v`.')
d('C103', 'models as trees of references into a heap of module objects (`Share.v`): get/set_params, train, compile, trainable flag and copy, with the effects in the order of the tree', 'frame lemmas (a method changes only the references it reaches), a simulation of the value model of `Params.v` for models without repeated references, and induction on the model for tied parameters.')
d('C104', 'copying by serialising and restoring (`hcopy` in `Share.v`): every occurrence of a module becomes a new object', 'induction on the model with the counter of references; independence follows from the frame lemmas of C103.')
d('C105', 'several conformal models whose dictionaries of quantiles are kept by reference (`ConfShare.v`), on top of `Conformal.v`', 'an invariant (no two models have the same dictionary) and a projection of the actions on each model; the refutation reduces to the stale quantiles of C44.')
d('C106', '`compile` of sequential models on the heap of `Share.v`', 'mutual inductive specification of the chain of shapes and keys; induction on the model, with the frame lemma showing that later modules do not touch earlier ones.')
d('C107', 'the progress bar function by function with rational numbers and the text it writes (`Progress.v`), and a terminal line with carriage return and line feed', 'invariant: the line is blank behind the longest text the bar remembers; induction on the calls.')
d('C108', 'the same', 'the last filled place is an index of the reachable states; arithmetic of rational numbers and their floor.')
d('C109', 'the object of `ConfState.v` with all numerical functions as parameters', 'a derived state: after each stage of calibrate the attributes are related to the facts of the specification; answers are then compared term by term.')

d('C110', '`EinsumObj.v`: the attributes of an Einsum module, compile with its effect also when it fails, call; `MatMul.v` for MatMul', 'a successful compile yields a map from letters to sizes that fits parameters and data; numpy\'s rule for einsum (`np_einsum_acc`) then accepts every batch. For MatMul the letters are those of its own notation, and the sizes of the result are compared with output_shape.')
d('C111', '`Composite.v` as for C55', 'each stage of the pipeline is shown equivalent to a condition on the arguments, which are combined; an invariant of the history says that the modules are those built from the arguments, compiled as far as the last attempt for the stored shape got, and that trying again gives the same.')
d('C112', '`Dof.v`: set_params and get_num_trainable_floats of the matrix modules on arrays with entries in a field, and the shapes and dtypes that compile draws', 'the exchange of two axes is an involution of the positions; entries paired by conjugation along an involution have one coordinate per position (real part or imaginary part, 2 being invertible); products of sets add up. That the number of coordinates is unique is the theorem that a homogeneous system with more unknowns than equations has a solution that is not zero.')
d('C113', '`Cover.v`: calibrate and __call__ from samples (prediction, sensitivities before normalisation, target) to the interval, composed of the functions of `Conformal.v`, `Strata.v` and `Uncertainty.v`; one output number', 'quantiles commute with positive factors, so with one term the normalisation cancels and the guarantee is that of C42; with strata, the row stored for the code of a sample is the median of the samples with the same features (CoverStrata.v); for the calibration samples the quantile is at least the score of the promised rank; the failures are three samples each, where all leave-one-out intervals are bounded by hand (median, MAD and quantile of two numbers).')
d('C114 C115', '`__getitem__`, `__setitem__` and readiness on nested values with models inside (`Access.v`).', 'places (lists of positions) as specification; induction on the path with a lemma that a change through one key is a replacement in one place.')

d('C116', '`strfmt_pytree` and the `__repr__` methods as functions to strings (`Show.v`).', 'lines without indentation as specification; splitting a concatenation at line breaks, induction on the tree.')

d('C117', 'models as trees of modules and models with optimiser states, `train` with `resume`, `serialize` and `deserialize` of modules, parameters and optimiser states, sequences of these (`FineTune.v`, on top of `Params.v` and `Train.v`).', 'the loop keeps the number of arrays and the frozen ones (C28), so the new optimiser states have the structure of the old ones and agree with the parameters that are set; loading rebuilds the same optimiser states from their leaves; induction on the sequence. The hypotheses about single modules (a file gives the module back, set_params of get_params changes nothing) are what C36 and C37 are about.')
d('C118', 'classes as lists of bodies, `inspect.isabstract`, attribute lookup and `__init_subclass__` (`Subclass.v`); whether a string is a version is an argument.', 'the abstract methods computed along the bases are those that are found abstract by lookup; specification of calls with one positional argument.')
d('C119', 'a directory as a function from names to contents; the handling of names in the three pairs of save and load methods and in numpy (`Files.v`).', 'case distinction on the suffix.')
d('C120', '`BaseModule.deserialize` and `Model.deserialize` as far as versions are concerned, with `upgrade` and the setting of the entries as arguments, and `ConformalizedModel.deserialize` up to the wrapped model (`Versions.v`).', 'induction on the saved data; the versions noted at any depth and the rewriting of old data are inductive predicates.')
d('C121', '`set_precision` as an operation on the models of `TrainModel.v`, with the arrays of `Precision.v` (`PrecTrain.v`).', 'whatever optimiser and callback keep for every parameter, the training loop keeps (induction along the loop); invariant over sequences of operations: the parameters have the precision, and so have the optimiser states once they have been made anew.')
d('C122', 'the choice of the direction in `grad_input`, `grad_params` and `train`, with the two stored functions, and the rules of jax about real and complex numbers (`Modes.v`).', 'case distinctions; for sequences of gradients the stored direction is an invariant. The numbers of entries and the conditions of jax are specified separately (`ModesSpec.v`).')
d('C123', 'the keys that `compile` of every class hands to `jax.random.normal`, and how `compile` of sequential and graph models splits them (`Draws.v`); a key is the path of splits that led to it', 'two keys below different children of a key are unrelated; induction over nested models. The other claims follow the loop of `SequentialModel.compile`, which splits once per module whatever the module does with its key.')
d('C124', 'the training loop of `Train.v` with paths as keys and a model that notes its keys; the keys of modules in nested sequential models (`TrainKeys.v`)', 'invariant of the loop: after n steps the key is the n-fold first child of the initial one, and the noted keys are the second children on the way; keys inside modules are below the key of the call.')
d('C125', 'the handler of both signals as a state of the process; `GracefulKiller` and what `_train` does with it when it is traced and when its loop runs (`Signals.v`)', 'induction over the epochs and over the history of the process; after tracing the killer is inactive, which is an invariant of everything but the next verbose training.')
d('C126', '`FuncBase` for an arbitrary function on trees of arrays (`FuncMod.v`); functions that treat samples on their own (`FuncModSpec.v`)', 'the trial input has the shapes of any single sample, and a sample of the output is the output of the sample.')
d('C127', 'models in models with the shapes they note, `compile` and `get_output_shape` of sequential and graph models (`Recompile.v`)', 'induction over the nesting; a model that is compiled right throughout announces what it gives, so that asking before or after compiling makes no difference unless something was compiled before.')
d('C128', 'Train.v: after_epoch (the callback and the counters), epoch_body (the checkpoint is taken before), train_loop. The callback is an arbitrary function of key, epoch and the flat list of parameters.',
  'Induction over the history of epochs of TrainProofs (train_spec): the state behind each epoch has the parameters the callback returned, hence every later epoch starts with them; the checkpoint is the state before. C128_last is an induction over the epoch loop that compares two callbacks: with the last epoch the loop ends and the state in which they differ is not part of the result. The witnesses use the small losses of Props_Train and a callback that cuts off at -5.')
d('C129', 'Nested.v: the callable of a model whose modules are models, by seq_callable of Seq.v with itself as callable of the modules (the depth of nesting is the fuel).',
  'Induction over the depth and the list of modules: both sides are equivalent to running the innermost modules one after the other (seq_ran of ChainProofs); runs can be cut and joined, and new states are put back where the old ones were. "Written out" is a relation of its own (NestedSpec.v).')
d('C130', 'Train.v (epoch_work: two splits of batch_rng per epoch; shuffle) with the keys of TrainKeys.v (paths of splits).',
  'Induction over the history of epochs (train_spec): before epoch i the key is batch_rng split 2 i times; the keys split off are those of a chain, which Props_TrainKeys shows to be independent. Same seed: the chain of the model starts with the first key of the split, the chain of batch_rng itself, so that they meet.')
d('C131', 'Edit.v (the edits, C33) and NonSeq.v/Connections.v (compilation and call of a graph model, C12).',
  'GraphEdit.v: the compiled network depends on the modules only through what the written paths find (partition_seen, compiled_seen); an edit of a dictionary changes one entry (dict_edit), appending to a list changes no position. Refuted by computing the modules called before and after.')
d('C132', 'ScalerShare.v: scaler objects on a heap; fit writes the statistics into the objects the tree refers to, in the order of sorted keys; the scalers other than mixed ones are arguments.',
  'ScalerShareSpec.v says where each object is used; ScalerShareMain.v: fit changes only objects placed in the fitted scaler (fit_local), and an object with one place ends with the statistics of that part (fit_stats); run_places and run_ok for the calls. Refuted by computation; C132_shared_never gives the outcome for two keys.')
d('C133', 'NonSeqNames.v: the constructor and the call of a graph model with one module under a given name, on top of NonSeq.v.', 'NamedProofs.v evaluates the model step by step (partition, outer connections, execution order, placement of the outputs, call) for every name without separator; with the separator: no part of the name is a key of the modules, so the partition of the connections fails; the cases together give the characterisation.')
d('C134', 'Sanity.v: the block of calibrate behind skip_sanity_checks; the order that jax.random.permutation gives, MAX_N and MAX_K are arguments.', 'a shuffled list has the same different rows; the number of unique rows is the length of any list without repetitions that has the same members; jax.tree.map and jax.tree.all over pairs of leaves.')
d('C135', 'Axes.v: the check `len(output_shape) < 1` on top of the shapes of `Seq.v` and `NonSeq.v`.', 'the theorems of C16 carry the announced shape over to the data; the length of a shape is analysed by kind of container.')
d('C136', 'Wire.v: dictionary objects and the graph models that refer to them; construction, copy, save and load, assignment and edits in place of the connections.', 'in a careful program (no copies, each dictionary handed over once; a condition on the text of the program) all models refer to different objects, by induction on the program; the sharing of copies is proved for every continuation that assigns neither attribute.')
d('C137', 'ModState.v: get_state and set_state of models over a heap of module objects, the extra case of graph models, and calls with and without update_state; modules and callable are arbitrary.', 'induction on the modules (writing back) and on the calls (threading), with the laws of a well-behaved module as hypotheses; witnesses are modules that count calls or sum inputs.')
d('C138', 'InfScores.v: scores, quantile and intervals over the reals with an infinity and a NaN.', 'infinite scores are replaced by a real number above all finite ones, which commutes with sorting; strictly between two positions both weights are positive, so that the quantile is infinite exactly if a neighbour is, and the theorem of C42 applies. The weights at the position n - 1 (alpha < 2/(n+1)) are one and zero.')
d('C139', 'Train.v and TrainModel.v as they are.', 'with all samples in one batch an epoch is one step with a reordering of the data, on which the losses agree; runs that differ in keys, counters and the number of the epoch are in simulation. The long run passes through the end of the short one; if its best epoch was the last, patience is full and the checkpoint is where the run stands, so the resumed run is in simulation with the rest. Refuted by three trainings of three epochs.')
d('C140', 'Reload.v: Model.deserialize as a sequence of steps, each of which may raise, with the model that is left.', 'by cases over the step that raises: until the last step one of the two shapes is None, which is_ready looks at.')
d('C141', 'SavedData.v: Model.deserialize on nested data, with the dictionary that is left afterwards.', 'induction on nested data; that the entries taken out do not matter is a relation between data (`alike`) under which loading has one outcome.')
TRUST = r'''
## Trusted base

- Coq's kernel (8.16.1, no kernel checks switched off), and the reading of the theorem statements.
- That the definitions of the model files follow the cited lines; nothing is extracted from or run
  against the Python code.
- The axioms below, as printed by `Print Assumptions` for every theorem: only the axioms of Coq's
  real numbers with the functional extensionality and excluded middle they come with, and none at
  all for most theorems.

Not modelled at all: floating-point rounding and overflow, XLA compilation and device placement,
numerical differentiation by JAX, the contents of progress bars and printed text, warnings, pickling
and compression inside `np.savez`, wall-clock time (training time limits are an argument of the
loop), thread and signal behaviour except the interrupt flag of the training loop, and the
quality of random numbers. JAX functions are trusted to do what their documentation says:
`jax.tree.*` flatten dictionaries in sorted key order and reject different structures,
`jax.random.split`/`permutation` return distinct keys / a permutation, `jax.lax.scan` iterates,
`np.linalg.eigh` returns an orthonormal eigenbasis, `np.quantile`/`np.interp`/`np.argsort` as stated
in the model files.

### Axioms per theorem
'''
FINDINGS = r'''
## Where the code disagrees with its documentation or with the properties

Each item names the theorem with the witness where there is one; the others were found while
modelling and are only described.

Small layers (`_autogenerated_activationfuncs.py`, `bias.py`, `constant.py`, `prelu.py`)

- GLU is documented as elementwise and announces the input shape, but halves the last axis
  (`C69_shape_refuted`). OneHot, frexp, packbits and unpackbits change the shape or the structure too.
- Softmax, LogSoftmax and Standardize act along the last axis, which is the batch axis for data with one
  number per sample (`C69_samples_mixed_refuted`).
- AMax, AMin and LogSumExp without arguments can never be evaluated (`C69_reductions_rejected`).
- `Bias.set_params` and `Constant.set_params` do not check shapes (`C70_shapes_refuted`,
  `C70_samples_refuted`, `C71_shapes_refuted`).
- `PReLU.compile` overwrites slopes that were set before (`C73_prelu_refuted`).

Graph models (`graph_util.py`, `nonsequentialmodel.py`)
- Module names beginning with `input` or `output` are mistaken for the reserved keys
  (`C11_inputs_name_refuted`, `C11_output_layer_name_refuted`).
- A module that nothing feeds but that feeds a used module makes the whole network be rejected as
  cyclic (`C10_acyclic_accepted_refuted`).
- The order of the targets of one source is not kept; a trailing separator loses a connection
  (`C08_order_preserved_refuted`, `C08_trailing_separator_loses_connection_refuted`).
- Dictionaries of modules mixing number-like and other keys do not compile or cannot be called
  (`C66_mixed_keys_refuted`, `C12_mixed_keys_refuted`).
- The callable writes into the state object of the caller (L849 `new_state = state`;
  `C15_state_argument_modified_refuted`).
- Every module gets the same random key (`C20_graph_keys_refuted`).
- Sets are used where insertion order is promised; "0" and "00" are different keys with the same index.
- `extend_structure_from_strpaths` chooses list or dictionary by the first path; extending a
  tuple directly inside a non-root tuple fails (`C56_extend_nested_tuple_refuted`); the order of paths matters
  (`C57_extend_order_independent_refuted`); the path "a." creates the key "".

Sequential models and `Model`
- Modules in a dictionary are applied in sorted, not insertion, order (`C18_insertion_order_refuted`).
- Parameters None make the callable of a sequential model raise.
- `pop` with index -1 on a tuple duplicates the rest (`C33_tuple_pop_last_refuted`); item assignment
  on a tuple always raises; inserting under an existing key drops an entry.
- `a + b` extends the list of `a` in place (`C34_list_refuted`).
- Stale functions after recompiling, `set_hyperparameters` or in-place changes
  (`C35_recompile_refuted`, `C35_set_hyperparameters_refuted`, `C35_in_place_refuted`); a changed
  differentiation mode is ignored (`C60_refuted`).
- A failed compile of a compiled sequential model leaves it ready with mixed modules (`C59_refuted`).
- Uncompiled models save but do not load; tuples of modules and ragged lists do not survive a file
  (`C36_uncompiled_refuted`, `C36_file_tuple_refuted`, `C36_file_ragged_refuted`).
- `set_precision` turns integer arrays into floats (`C38_integer_refuted`).

Batching and training
- `autobatch` with recompilation avoidance fails on arrays with one axis (`C21_one_axis_refuted`);
  a batch size of 0 is a ZeroDivisionError; it jits only when avoiding recompilation.
- Splitting with a batch size above the number of rows is a TypeError (`C23_oversized_batch_refuted`).
- Interrupts are only noticed in verbose mode (`C27_quiet_interrupt_refuted`).
- The validation loss is an unweighted mean over batches (`C29_refuted`).
- The complex optimizer counts batches and epochs (`C30_complex_refuted`); the saved state is one
  epoch behind (`C30_resume_refuted`). A callback can change frozen parameters (`C28_callback_refuted`).
  A NaN initial loss leads to zero epochs.
- Validation targets without inputs, validation uncertainties, custom validation losses, missing
  targets and non-positive batch sizes pass the checks (`C31_*_refuted`).
- Loss names beginning with `pseudo_huber` are accepted, relative errors divide by zero at -1e-4,
  `pseudo_huber` works on bare arrays only (`C32_*_refuted`); predictions of the wrong shape are
  broadcast (`C58_refuted`).

Preprocessing
- `RobustScaler.transform` raises for two or more features (`C39_robust_refuted`); `fit` with scalar
  options on trees raises ValueError; `MinMaxScaler` with range (None, None) on trees too.
- `OneHot.fit` sorts every column on its own, so combinations are mixed up (`C41_refuted`).
- The annotation of `OneHot.transform` (onehot.py L67) has one `num_unique` for all leaves, and annotations of scalers are
  checked, so two categorical features with 2 and 3 values cannot be encoded together (`C41_categories_refuted`).

Conformal prediction
- Stratified bias corrections only work for outputs of sample shape (1,) (`C74_two_outputs_refuted`).
- Input uncertainties are not mapped over the samples: wrong shapes or mixed samples
  (`C76_shape_refuted`, `C76_samples_refuted`).
- `adam` never advances its counter within an epoch, and `complex_adam` advances it once too often per
  epoch (training.py L175, L268, L1046-1049): bias corrections and schedules are wrong unless there is one
  batch per epoch, respectively after the first epoch (`C82_batches_refuted`, `C82_epochs_refuted`).
- Clipping acts on real and imaginary parts separately and so changes the direction of complex gradients
  (`C84_direction_refuted`, `C85_phase_clipped_refuted`).
- Distances are added as a column (n, 1) to outputs of any rank (`C75_distance_refuted`); models with
  outputs of different shapes raise TypeError (`C75_output_shapes_refuted`); no selected continuous
  input raises ZeroDivisionError (`C77_division_by_zero_refuted`).
- A selected continuous feature that is constant in the training data makes calibration fail
  (`C81_constant_feature_refuted`), as do categorical features of several numbers
  (`C81_wide_category_refuted`); a category not seen in training counts one half
  (`C81_new_category_refuted`); training samples have positive distances, larger than those of some
  samples between them (`C80_training_samples_refuted`).
- For alpha < 1/(n+1) the level is clamped to 1 silently (`C42_refuted`).
- Recalibrating keeps cached quantiles (`C44_refuted`).
- `weighted_quantile` sorts by weight (`C46_refuted`) and raises for arrays of more than one
  dimension (`C46_matrices_rejected`), which is how it is called.
- Calibrating with label uncertainties always raises; the stratified bias appends `[[0.0]]`;
  `from_file` does not unpack the stored name.

Modules
- `Eigenvalues.get_output_shape` with num_eig None indexes the tree (`C50_refuted`); the `name` of
  Eigenvalues and Eigensystem lacks the f-prefix.
- `Einsum`: a scalar first operand is dropped (`C51_accepted_refuted`); several parameter arrays
  cannot be announced (`C65_announced_refuted`); fewer strings than arrays pass compile and fail in
  the call; a triple with too many input strings is a KeyError.
- `MatMul`: digit keys break path_order (`C52_product_refuted`), 26 or more operands are transposed
  (`C52_many_refuted`), more than fifty are rejected (`C52_accepted_refuted`); `(None, k)` is refused for
  a last parameter contrary to the documentation; the separator is lost on copying
  (`C37_matmul_refuted`).
- `Reshape`: None targets announce None, negative sizes pass, tuple promotion (`C53_*_refuted`);
  `Flatten` of scalars announces a float.
- `ConcatenateLeaves` counts negative axes from the batched array (`C54_refuted`) and forgets
  path_order and separator when copied (`C37_concatenate_refuted`).
- `grad_input(return_state=True)` and `grad_input(update_state=True)` give states with an additional
  axis of the number of samples (`C87_input_state_refuted`), and with `max_batch_size` the second batch
  runs on such a state (`C86_input_state_refuted`). The choice between forward and reverse mode adds up
  the dimensions of all shapes instead of multiplying them (described only; no effect on values).
- `LinearNN` announces `(out_features,)` also for activations that change the size
  (`C89_glu_refuted`), keeps its old modules when `out_features` is changed (`C89_resized_refuted`),
  and refuses samples without axes (`C88_scalar_rejected`).
- `LowRankAffineHermitianMatrix` omits its rank from the hyperparameters (`C37_lowrank_refuted`).
- `AffineHermitianMatrix` with complex features is not Hermitian (`HermExamples.v`).
- `LinearNN` loses its activation, complex `Bias` and unserialisable activation arguments are lost
  on copying (`C37_*_refuted`); the constructor of `Bias` checks the first leaf only.
- `AffineObservablePMM` ignores the supplied bias (`C55_supplied_bias_refuted`); both composite
  modules drop appended modules at the next compile and cannot be added (`C67_*`), and announce None
  or nothing when sizes are left open (`C68_*_refuted`). With `num_secondaries` left at its default 1
  supplied observables with more secondaries are rejected; `AffineEigenvaluePMM` demands matrix_size
  even when Ms determines it.

- Scalers of lists or tuples do not survive a file: arrays of one shape are stacked so that the loaded
  scaler refuses the data it was fitted to, different shapes cannot be saved (`C91_file_refuted`,
  `C91_ragged_refuted`); a MixedScaler of a list of scalers cannot be loaded, a tuple becomes a list
  (`C91_mixed_refuted`, `C91_tuple_refuted`); a MinMaxScaler with array bounds cannot be loaded
  (`C91_bounds_refuted`). In memory all of them survive (`C90_memory`).

- A conformal model whose calibration is refused is left half changed: flags of the wrong structure with
  a bias correction make it unusable until a calibration succeeds (`C93_refuted`), unusable training data
  mix new scales with the old k-d tree and scores (`C93_changes_refuted`), and then the model can no
  longer be copied (`C92_failed_calibration_refuted`).
- `ConformalizedModel.from_file` leaves the name as an array without axes (`C92_name_refuted`; also the
  version fields), and does not pass `strict_package_version` on to the wrapped model.
- After a calibration without training data, `input_sensitivity` still uses those of the previous one
  (`C94_input_refuted`).

- A frozen module inside a nested model is trained if any other module of that model is trainable
  (`C95_refuted`); freezing the whole nested model works (`C95_freeze_unmixed`).
- `set_params` of a model checks the structure at the outermost level only: a part refused by a module, or
  a misfit inside a nested model, leaves the earlier modules with the new values (`C96_refuted`).

- The check of the input of a model accepts arrays with different numbers of samples, and single numbers
  without an axis of samples (`C98_refuted`).
- `tree_util.all_close` takes arrays of different shapes for close if they can be broadcast and raises
  otherwise; `all_equal` raises for equal numpy arrays (`C99_refuted`).

- `LowRankAffineHermitianMatrix.set_params` does not compare the numbers of weights and vectors of a module
  without parameters, nor does `compile`; the first call fails (`C100_low_rank_refuted`).
- A compiled `ExpectationValueSum` or `TransitionAmplitudeSum` accepts observables of another matrix size
  and then fails when called (`C100_sum_refuted`).

- `train(resume=True)` starts from the parameters kept in the optimiser state: parameters set (or converted
  by `set_precision`) after the last training are silently replaced by the old ones (`C102_refuted`).

- A module object that occurs twice in a model: `set_params` and `train` write it twice and keep one of the
  two parts, so `get_params` does not return what was set or trained (`C103_refuted`); the value model of
  `Params.v` (no sharing) is exact for all other models (`C103_unshared`).
- Copying (or saving and loading) such a model gives two separate modules, so the copy behaves differently
  (`C104_refuted`).
- A `ConformalizedModel` restored in memory with `deserialize(m.serialize())` shares the dictionary of
  quantiles with the original; asking one changes the answers of the other (`C105_refuted`).

- A module object that occurs twice in a sequential model is compiled twice; a module that keeps the shape it
  was compiled for (`Flatten`) keeps only the second one (`C106_refuted`).

- `ProgressBarSingleton.start` forgets the length of the text in the line: the bars of the epochs in `train`
  overwrite each other and leave remnants such as `(0s))` (`C107_refuted`); `reset` forgets it before it clears
  the line (`C107_reset_refuted`). While the progress is 0 the remaining seconds are negative (`C108_refuted`).

- `ConformalizedModel.parameter_sensitivity` and `input_sensitivity` test the tree of flags for truth, and a
  container of `False` is true: with the term switched off they raise, or answer with the normalisation of an
  earlier calibration (`C109_off_refuted`, `C109_off_stale_refuted`). Without training data the input and distance
  terms are left out silently (`C109_nothing`), and a model that was never calibrated reports uncertainty zero
  (`C109_uncalibrated`).

* C110: `Einsum.compile` stores the shape before it checks anything: after a failed compile the module reports to be
  ready, calls fail, and the right shapes are refused (`C110_ready_refuted`, `C110_retry_refuted`). With several drawn
  arrays of parameters compiling again for the same shapes fails (`C110_again_refuted`). Output letters that are
  repeated or occur in no operand are only found when the module is called (`C110_output_refuted`). An integer
  output_shape of MatMul fixes the first size only.

* **Counts of trainable floats assume complex matrices** (C112). With a real array for `Ms` or `Ds` the report of
  AffineHermitianMatrix, ExpectationValueSum and TransitionAmplitudeSum is n² per matrix although a real symmetric
  matrix has n(n+1)/2 numbers and training keeps it real (`C112_real_refuted`). LowRankAffineHermitianMatrix counts
  two floats per entry of `us` and one per entry of `ls` whatever their dtypes, and set_params accepts any dtype.
- The coverage guarantee that the documentation of ConformalizedModel states (L49-51, L104-110) does not hold for the procedure as written when two or more sensitivities contribute (the default with training data) or when a bias is corrected: normalisations and biases are fitted to the calibration data that also give the scores. Of three samples only one is covered at alpha = 1/3, although two are promised (C113). The documentation names uncertain labels as the only exception. With one sensitivity the normalisation has no influence on the intervals at all.

- `model["sub", "layers", 0] = m` resets the outermost model only: the nested model `sub` keeps its
  shapes and counts as compiled (`C114_reset_refuted`, `C114_kept`); a nested graph model then skips
  compilation altogether if the new module is ready.
- `Model.__getitem__` and `__setitem__` are annotated with `jax.tree_util.KeyPath`, but entries of real
  key paths (`DictKey`, `SequenceKey`) are used as subscripts: reading always fails and assigning to a
  dictionary adds an entry under that object (`C114_jax_paths_never`, `C114_jax_paths_added`).
- `NonSequentialModel` overrides `is_ready` but not `_get_unready_reason`: "Unknown reason."
  (`C115_graph_refuted`).

- `strfmt_pytree` indents the lines of nested containers by their absolute depth and again by every
  enclosing container, so a nested closing bracket never stands below its opening bracket
  (`C116_nested_never`); `max_leaf_chars` below 3 gives lines longer than the limit, since the slice end
  becomes negative (`C116_limit_refuted`). `BaseModule.__repr__` of a frozen module ends with a stray
  parenthesis (`C116_balanced_refuted`).

- **Resuming undoes `set_params`, for frozen modules too** (C117): `train(resume=True)` starts from the
  parameters stored in the optimiser states (training.py L1275-1284), not from those of the modules, and
  writes them back into every module, trainable or not (model.py L1242). Loading pre-trained parameters
  into a trained model, freezing them and training on therefore loses them silently (`C117_refuted`).

- `BaseModule.__init_subclass__` says that it wraps all methods of all subclasses with the run-time type
  checker, but it returns early for abstract classes, so that methods defined in `Model`, `ActivationBase`
  or `FuncBase` without an explicit decorator are never checked (`C118_refuted`). The test for required
  constructor arguments goes by the name `self` (`C118_names_refuted`).

- `ConformalizedModel.save("conf")` writes `conf.npz`, but `ConformalizedModel.from_file("conf")` opens `conf`:
  FileNotFoundError, or another file. `Model` and `Scaler` add the suffix when loading, but only to strings:
  `save(Path("m"))` writes `m.npz` (numpy adds the suffix) and `load(Path("m"))` opens `m` (`C119_refuted`,
  for every such name `C119_lost`).
- `Model.deserialize` resets the model before it looks at the version of the package, so a file refused
  because of `strict_package_version=True` leaves the model not ready and without optimiser states
  (`C120_refuted`). `ConformalizedModel.deserialize` does not hand `strict_package_version` on to the model
  inside (conformalizedmodel.py L1638), so that data with an older model inside are loaded in spite of it
  (`C120_conformal_refuted`); `serialize` writes one version everywhere, so files it wrote are not
  affected (`C120_conformal_partial`).
- `Model.astype`/`set_precision` converts the modules but leaves the optimiser states alone (model.py
  L957-1029), so that a following `train(resume=True)` brings the old precision (and the old values) back
  (`C121_refuted`, in general `C121_comes_back`).
- `Model.train` of a model without any trainable parameter raises `ValueError` from inside jax
  (`max()` of an empty sequence), whatever the number of epochs: `jax.grad` is called with no argument to
  differentiate by (training.py L1608-1622, `C27_nothing_to_train`). What jax does here is read off its
  documentation and sources as remembered; it could not be run.

- **Default gradients by complex parameters** (C122): `grad_params` without `fwd` goes forward if the input is
  smaller than the output, but `jax.jacfwd` refuses complex numbers, which is what the matrix modules have by
  default (affinehermitianmatrix.py L243-249). So a PMM with one input and two outputs raises `TypeError`, and
  because the batched function is kept (see C60), `grad_params(X, fwd=False)` afterwards still raises it
  (`C122_refuted`, `C122_stuck`) until another `max_batch_size` is given (`C122_recover`). The parameter
  sensitivities of `ConformalizedModel` use the same function and default (conformalizedmodel.py L845-852).
- The sizes compared for this are wrong: `jax.tree.reduce` looks into the shape tuples, so the sizes of an array
  are added, not multiplied (model.py L700-709): inputs of shape (10, 10) count as 20
  (`C122_direction_refuted`). Only the speed depends on it, apart from the above.

- `AffineTensor.compile` with `real=False` adds `1j` times a *complex* normal array to a real one
  (affinetensor.py L193-209): the real parts have mean square 3/2, the imaginary parts 1/2, in units of
  the squared magnitude (`C123_size_refuted`); all other classes give 1 and 1.
- Validation calls the model with the key from which the following training keys are split
  (training.py L581, L989, L1068): in a sequential model `[a, [b, c]]` the module `b` gets in the first
  validation exactly the key of `a` in the first training step (`C124_validation_refuted`).
- Interrupts: `_train` is compiled by jax, so that `killer.active = False` (training.py L1118) is executed
  before the first epoch. A second Ctrl-C during training has no effect (`C125_second_refuted`), and since the
  handlers are never put back, SIGINT and SIGTERM have no effect any more after a verbose training (the
  default) (`C125_after_refuted`, `C125_later_quiet_never`). `signal.signal` also makes verbose trainings fail
  outside the main thread (`C125_thread_refuted`). That tracing executes the Python statements before the
  compiled loop runs is how jax works; it is not proved.
- `FuncBase.get_output_shape` makes a trial run with one sample (funcbase.py L135-144): functions that
  squeeze announce a wrong shape (`C126_squeeze_refuted`), functions that mix samples pass compile and fail
  later (`C126_mixing_refuted`).
- `get_output_shape` of a compiled model returns the output shape it was compiled with, whatever it is asked
  (sequentialmodel.py L180, nonsequentialmodel.py L724; `C127_asked_refuted`). A graph model asks all its modules
  for their output shapes before it compiles them (L443-446). So a sequential model that was compiled for another
  shape and is put into a graph model makes the modules behind it compile for the wrong shape
  (`C127_refuted`), and the graph model announces a wrong shape (`C127_announced_refuted`).
* C128: the best parameters are noted (L1005-1025) before the callback changes them (L1039). A callback that
  projects the parameters onto an admissible set therefore does not make the trained model admissible, and with
  `epochs=1` it does nothing. It is called once per epoch, while its documentation says "after each training step".

* C130: `Model(rng=0)` and `train(batch_rng=0)` use the same stream of keys: the key that shuffles the validation
  data in the first epoch is the key of the first training step, and so on. (The init key is split at L1068, the
  batch key at L885 and L978, with nothing that tells the two apart.)

* C131: the connections of a graph model name modules of a list by position, and `insert_module`, `prepend_module`
  and `pop_module_by_index` leave the connections alone. With connections input-1-2-output over four modules,
  prepending one makes the model call modules 0 and 1, removing the unused module 0 makes it call 2 and 3
  (counted as before the edit), without an error. With a dictionary this does not happen.
* C132: `s = StandardScaler(); MixedScaler({"a": s, "b": s})` fits the one object twice and scales both parts by the
  statistics of `b`; nothing warns. Fitting a second mixed scaler that contains `s` changes the first one.
- A module of a graph model may be called `output_layer`: the model then returns `{'output_layer': <input of the module>,
  'output': <its output>}` (C133). Names with the separator or the empty name are accepted and never run; `input`
  and `output` are refused by the constructor only.

- The check of continuous features in `ConformalizedModel.calibrate` indexes every leaf with `[:MAX_N, :MAX_K]`
  (L377-382), so data with a leaf of one number per sample (one axis) cannot be calibrated with the default
  arguments: IndexError (C134). With at most ten samples the warning is always given for features said to be
  continuous (the default), whatever the data.

- The check that a model has an output with an axis besides the samples takes `len` of the shape, which for a
  container is the number of entries: outputs `{"a": ()}` pass (C135_refuted). It comes after
  `self.output_shape` is set: a new model of modules that are ready by then raises and is ready nevertheless
  (C59_no_axes_refuted). NonSequentialModel sets both shapes before it compiles its modules: with modules that
  were ready before (e.g. a Bias with parameters of another shape) it is ready after a failed compile
  (C59_ready_modules_refuted).
- `copy()` of a NonSequentialModel ("a deep copy") hands on the connections dictionary itself: an edit in place of
  the copy's connections rewires the original (C136_refuted). The constructor keeps the caller's dictionary too
  (C136_constructor_refuted).
- NonSequentialModel.get_state gives None for modules that are not ready, and set_state hands that None to
  `set_state` of the module: an unconnected module with a state loses it, or raises, after a call with
  update_state, a training or loading (C137_put_back_refuted, C137_none_refuted).
- A calibration sample with uncertainty zero that is predicted exactly makes every interval NaN
  (C138_exact_sample); one that is not predicted exactly does so for alpha < 2/(n+1) (C138_small_alpha). No warning.
- Training in two parts is not training at once (C139). The returned optimiser state is a
  checkpoint from before the counter was advanced (training.py L1005-1049), so a resumed training
  repeats one value of the counter, in the bias correction and in the learning rate schedule; epochs
  are counted from 0 again (L1712) for losses given as callables; and a resumed training starts at
  the best epoch of the part before, not at the last.
- A load that fails is not undone (C140): model.py L1660 resets the model before anything is
  checked, and L1682 replaces the modules before they are filled. The result is not ready, but
  compile, which train calls by itself (L1094-1104), makes it usable with fresh modules in it.
- `Model.deserialize` pops "trainable" from the dictionary it is given (model.py L1728-1735), at every depth
  (`C141_refuted`); harmless for loading again (`C141_again`).
- Noticed while reading, neither modelled nor run: the warning about a too large validation batch prints the size
  that has just been replaced (training.py L1672-1678); `is_single_leaf` prints a line whenever the answer is no
  (tree_util.py L119); the wrapper for batched calls is kept while `max_batch_size` and `avoid_recompilation` stay the
  same, so that a later `verbose`, `extra_info` or `newline` has no effect (model.py L592-613); the `name` of a
  LowRankAffineHermitianMatrix says `AffineHermitianMatrix` and leaves out the rank; six error messages of the affine
  modules print `{input_shape}` literally; `+` of graph models always raises NotImplementedError
  (nonsequentialmodel.py L997).

## Disagreements between model and code

None known. Deliberate differences are the simplifications listed per model file; where the code's
exception class depends on run-time type checking (beartype/jaxtyping) the model follows the explicit
checks, and whether an int passes for a float there is left open as a parameter (`tower`).
'''
