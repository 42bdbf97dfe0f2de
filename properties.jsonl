{"id": "C01", "title": "Path write then read", "statement": "Whenever writing a value into a PyTree at a dotted path succeeds, reading the tree at that same path afterwards returns exactly the written value.", "quantifier": "every PyTree (nested dicts/lists/tuples/None/leaves), every path string, every value", "why_tests_cant": "trees and paths are unbounded recursive inputs; tests only try a few shapes", "anchors": ["parametricmatrixmodels/tree_util.py:setitem_by_strpath", "parametricmatrixmodels/tree_util.py:getitem_by_strpath"]}
{"id": "C02", "title": "Path write is local", "statement": "Writing at a dotted path changes nothing that is read through any path that leaves the written one at some component: reads of such paths give the same value, or the same kind of failure, as before.", "quantifier": "every PyTree, every written path, every other path not related to it by prefix", "why_tests_cant": "frame conditions quantify over all other locations", "anchors": ["parametricmatrixmodels/tree_util.py:setitem_by_strpath", "parametricmatrixmodels/tree_util.py:getitem_by_strpath"]}
{"id": "C03", "title": "Partial path lookup splits the path", "statement": "A lookup with early return and remainder reporting returns the node reached and the unread rest: consuming the path up to the remainder reaches exactly that node, and the remainder is empty unless the node is a leaf. Without early return the lookup fails with TypeError exactly where the early-return lookup leaves a non-empty remainder.", "quantifier": "every PyTree and every path string", "why_tests_cant": "must hold for all depths and all leaf positions", "anchors": ["parametricmatrixmodels/tree_util.py:getitem_by_strpath"]}
{"id": "C04", "title": "Extending a structure from paths", "statement": "When extending a (possibly empty) structure with paths and fill values succeeds, every requested path then reads its fill value and every leaf that was already present still reads its old value; when two paths ask for different values in the same slot, or a slot already holds something different, the call fails rather than overwriting.", "quantifier": "every base tree, every list of paths, every list of fill values", "why_tests_cant": "interaction of many paths in one call, all orders", "anchors": ["parametricmatrixmodels/tree_util.py:extend_structure_from_strpaths"]}
{"id": "C05", "title": "Conversion to mutable containers", "statement": "Converting a module tree to mutable form removes every tuple, keeps every leaf, keeps what each path reads, and is idempotent.", "quantifier": "every PyTree of any depth", "why_tests_cant": "unbounded nesting", "anchors": ["parametricmatrixmodels/tree_util.py:make_mutable"]}
{"id": "C06", "title": "Ambiguous input slots are made distinct", "statement": "When several connections target paths in the same module, the concretised slot paths are pairwise different and none is an extension of another, each one extends (or equals) the path the user wrote, and paths that were already unambiguous are returned unchanged; the procedure never runs out of free indices.", "quantifier": "every list of target paths with non-empty components", "why_tests_cant": "combinatorial in number and overlap of paths", "anchors": ["parametricmatrixmodels/graph_util.py:concretize_paths"]}
{"id": "C07", "title": "Every input slot has exactly one source", "statement": "For any connection dictionary that is accepted, after placement each input slot of each module (and of the output) is fed by exactly one source; the internal 'multiple sources' failure cannot occur.", "quantifier": "every module tree and connection dictionary", "why_tests_cant": "needs all possible overlaps of user connections", "anchors": ["parametricmatrixmodels/graph_util.py:concretize_connections", "parametricmatrixmodels/graph_util.py:place_connections_in_tree"]}
{"id": "C08", "title": "No connection is lost or invented", "statement": "Concretising a connection dictionary keeps, for each source, the multiset of modules it is connected to, and the order in which the user listed its targets.", "quantifier": "every connection dictionary", "why_tests_cant": "order/multiplicity for arbitrarily many targets", "anchors": ["parametricmatrixmodels/graph_util.py:concretize_connections", "parametricmatrixmodels/graph_util.py:partition_connections_by_tree"]}
{"id": "C09", "title": "Execution order is topological", "statement": "Whenever an execution order is produced it starts at the input, ends at the output, contains each module that lies on some input-to-output path exactly once and nothing else, and places every module after all modules it takes data from.", "quantifier": "every finite directed connection graph with no edge into the input", "why_tests_cant": "graphs are unbounded; tests cover a handful", "anchors": ["parametricmatrixmodels/graph_util.py:resolve_connections", "parametricmatrixmodels/graph_util.py:validate_resolution"]}
{"id": "C10", "title": "Every acyclic network is accepted", "statement": "If the connection graph is acyclic and the output is reachable from the input then an execution order is produced; if the part between input and output has a cycle the call fails.", "quantifier": "every finite directed connection graph", "why_tests_cant": "requires quantifying over all graphs", "anchors": ["parametricmatrixmodels/graph_util.py:resolve_connections"]}
{"id": "C11", "title": "Module names do not matter", "statement": "Renaming a module consistently in the module tree and in the connections (avoiding only the reserved names 'input' and 'output' themselves) does not change acceptance, execution order or model output.", "quantifier": "every connection dictionary and every injective renaming", "why_tests_cant": "all names", "anchors": ["parametricmatrixmodels/graph_util.py:get_outer_connections_by_tree", "parametricmatrixmodels/graph_util.py:partition_connections_by_tree", "parametricmatrixmodels/graph_util.py:place_connections_in_tree", "parametricmatrixmodels/nonsequentialmodel.py:NonSequentialModel.__init__"]}
{"id": "C12", "title": "Graph model computes the dataflow semantics", "statement": "The output of a compiled graph model equals the denotational value of the graph: each module applied exactly once to the outputs of its sources, assembled as the connections say.", "quantifier": "every accepted acyclic graph, all module functions, all inputs, parameters, states", "why_tests_cant": "all graphs and all module functions", "anchors": ["parametricmatrixmodels/nonsequentialmodel.py:NonSequentialModel._get_callable", "parametricmatrixmodels/nonsequentialmodel.py:NonSequentialModel._get_module_input_dependencies"]}
{"id": "C13", "title": "Unconnected modules have no influence", "statement": "Modules not on any input-to-output path are never executed: changing their function, parameters or state changes neither output nor any other module's state, and their own state is returned unchanged.", "quantifier": "every graph and every such module", "why_tests_cant": "all graphs", "anchors": ["parametricmatrixmodels/nonsequentialmodel.py:NonSequentialModel._get_callable", "parametricmatrixmodels/graph_util.py:resolve_connections"]}
{"id": "C14", "title": "Module state is updated exactly once and in place", "statement": "After a forward pass of a graph model, the state of every executed module is the state that module returned, every other module's state is unchanged, and the state structure is preserved.", "quantifier": "every graph, state tree and input", "why_tests_cant": "frame property over all modules", "anchors": ["parametricmatrixmodels/nonsequentialmodel.py:NonSequentialModel._get_callable"]}
{"id": "C15", "title": "A forward pass does not modify its arguments", "statement": "Evaluating a model's pure callable leaves the params and state objects passed by the caller unmodified.", "quantifier": "every model, input and state", "why_tests_cant": "aliasing only observable for some state structures and later uses", "anchors": ["parametricmatrixmodels/nonsequentialmodel.py:NonSequentialModel._get_callable", "parametricmatrixmodels/sequentialmodel.py:SequentialModel._get_callable", "parametricmatrixmodels/training.py:_train"]}
{"id": "C16", "title": "Announced shapes are the real shapes", "statement": "If every module's announced output shape agrees with its evaluation, then the shapes announced by the compiled model for every intermediate and for the output equal the shapes of the arrays produced by evaluation.", "quantifier": "every graph/sequence of modules and every input", "why_tests_cant": "all compositions", "anchors": ["parametricmatrixmodels/nonsequentialmodel.py:NonSequentialModel._get_shape_progression", "parametricmatrixmodels/sequentialmodel.py:SequentialModel.get_output_shape", "parametricmatrixmodels/sequentialmodel.py:SequentialModel.compile"]}
{"id": "C17", "title": "Sequential model is left-to-right composition", "statement": "A sequential model applies its modules one after another in flattening order, each exactly once, threading data, and returns each module's own new state in the same structure; nesting sequences in any way does not change the result.", "quantifier": "every nested module container and every input", "why_tests_cant": "unbounded nesting", "anchors": ["parametricmatrixmodels/sequentialmodel.py:SequentialModel._get_callable"]}
{"id": "C18", "title": "Dictionary order of modules is application order", "statement": "When modules are given as a dictionary, they are applied in the order in which the user inserted them (as the documentation states).", "quantifier": "every dictionary of modules", "why_tests_cant": "all key names/orders", "anchors": ["parametricmatrixmodels/sequentialmodel.py:SequentialModel"]}
{"id": "C19", "title": "Chain graph equals sequential model", "statement": "A graph model whose connections form the chain input -> m1 -> ... -> mn -> output gives the same output and the same module states as the sequential model [m1,...,mn] (for modules that do not use randomness).", "quantifier": "every n, modules, inputs", "why_tests_cant": "all lengths", "anchors": ["parametricmatrixmodels/nonsequentialmodel.py:NonSequentialModel._get_callable", "parametricmatrixmodels/sequentialmodel.py:SequentialModel._get_callable"]}
{"id": "C20", "title": "Randomness is independent across modules", "statement": "Within one forward pass every module receives its own random key.", "quantifier": "every model with at least two modules", "why_tests_cant": "depends on key derivation for all sizes", "anchors": ["parametricmatrixmodels/sequentialmodel.py:SequentialModel._get_callable", "parametricmatrixmodels/nonsequentialmodel.py:NonSequentialModel._get_callable"]}
{"id": "C21", "title": "Automatic batching is transparent", "statement": "For a model that acts sample by sample, evaluating with any maximum batch size (with or without recompilation avoidance) gives exactly the result of evaluating all samples at once, in the same order.", "quantifier": "every number of samples, every max batch size >= 1, every samplewise function", "why_tests_cant": "all divisibility cases", "anchors": ["parametricmatrixmodels/model_util.py:autobatch"]}
{"id": "C22", "title": "Automatic batching threads state", "statement": "With a state-carrying function, batched evaluation equals running the function on consecutive slices that cover all samples exactly once in order, passing the state of each slice to the next and returning the last one.", "quantifier": "every function, number of samples and max batch size", "why_tests_cant": "all sizes", "anchors": ["parametricmatrixmodels/model_util.py:autobatch"]}
{"id": "C23", "title": "Splitting into batches is lossless", "statement": "Splitting data into batches of a given size and concatenating the pieces gives back the data; all full batches have the requested size, the remainder is shorter, and all leaves are split at the same positions.", "quantifier": "every data length and batch size", "why_tests_cant": "all sizes", "anchors": ["parametricmatrixmodels/tree_util.py:pytree_split", "parametricmatrixmodels/tree_util.py:batch_leaves", "parametricmatrixmodels/tree_util.py:concatenate"]}
{"id": "C24", "title": "Shuffling keeps samples aligned", "statement": "Randomly permuting the data permutes all leaves (inputs, targets, uncertainties) with the same permutation, so every (x, y) pair that was present is still present exactly as often and no new pair appears.", "quantifier": "every dataset, every random key", "why_tests_cant": "all permutations", "anchors": ["parametricmatrixmodels/tree_util.py:random_permute_leaves", "parametricmatrixmodels/training.py:_train"]}
{"id": "C25", "title": "Each epoch uses each sample once", "statement": "In every training epoch the gradient steps together process every training sample exactly once.", "quantifier": "every number of samples, batch size and permutation", "why_tests_cant": "all sizes and shuffles", "anchors": ["parametricmatrixmodels/training.py:_train"]}
{"id": "C26", "title": "Returned parameters are the best seen", "statement": "Training returns the parameters (and model state) of the epoch with the lowest validation loss, the reported best loss is the minimum over the initial model and all completed epochs (ignoring NaN), and it is never worse than the initial loss.", "quantifier": "every sequence of losses and updates, every stopping cause", "why_tests_cant": "all histories of losses", "anchors": ["parametricmatrixmodels/training.py:_train", "parametricmatrixmodels/training.py:train"]}
{"id": "C27", "title": "Training stops when it should", "statement": "Training runs at most the requested number of epochs, stops at the first epoch boundary after an interrupt, stops once the best loss is at or below the target, and stops exactly after `patience` consecutive epochs without sufficient improvement.", "quantifier": "every history of losses/interrupts", "why_tests_cant": "all histories", "anchors": ["parametricmatrixmodels/training.py:_train", "parametricmatrixmodels/training.py:GracefulKiller"]}
{"id": "C28", "title": "Frozen parameters do not change", "statement": "Parameters of modules marked not trainable are returned by training bit-for-bit unchanged, and each trainable parameter is updated using its own gradient, for any mix of frozen and trainable modules.", "quantifier": "every parameter structure and trainability mask, any number of steps", "why_tests_cant": "all masks and step counts", "anchors": ["parametricmatrixmodels/training.py:_train", "parametricmatrixmodels/training.py:train", "parametricmatrixmodels/model.py:Model.train"]}
{"id": "C29", "title": "Validation loss does not depend on batch size", "statement": "For a loss that is a mean over samples, the reported validation loss equals the mean over all validation samples irrespective of the validation batch size.", "quantifier": "every number of samples and batch size", "why_tests_cant": "all divisibility cases", "anchors": ["parametricmatrixmodels/training.py:_train"]}
{"id": "C30", "title": "Optimizer epoch counter", "statement": "Each completed epoch advances the optimizer's step counter by exactly one, for real and complex optimizers alike, and a returned optimizer state resumes the schedule where the returned parameters left it.", "quantifier": "every number of epochs and batches", "why_tests_cant": "all histories", "anchors": ["parametricmatrixmodels/training.py:adam", "parametricmatrixmodels/training.py:complex_adam", "parametricmatrixmodels/training.py:_train"]}
{"id": "C31", "title": "Training arguments are validated", "statement": "Inconsistent training arguments (missing targets for supervised losses, mismatching sample counts, bad callables) are rejected with ValueError before any step is taken, and every accepted combination trains with the data the user passed.", "quantifier": "every combination of optional arguments", "why_tests_cant": "cartesian product of options", "anchors": ["parametricmatrixmodels/training.py:train", "parametricmatrixmodels/model.py:Model.train"]}
{"id": "C32", "title": "Loss functions", "statement": "Each named loss is zero on a perfect prediction and non-negative (unless unsupervised), weighs residuals by the given uncertainties, and unknown names are rejected.", "quantifier": "all arrays and all names", "why_tests_cant": "all values", "anchors": ["parametricmatrixmodels/training.py:make_loss_fn"]}
{"id": "C33", "title": "Module editing is sequence editing", "statement": "insert/append/prepend/pop/replace on a model's modules act like the corresponding operation on the sequence of modules, affect no other module, and always leave the model in the not-compiled state.", "quantifier": "every container kind, index/key and history of edits", "why_tests_cant": "all histories", "anchors": ["parametricmatrixmodels/model.py:Model.insert_module", "parametricmatrixmodels/model.py:Model.append_module", "parametricmatrixmodels/model.py:Model.prepend_module", "parametricmatrixmodels/model.py:Model.pop_module_by_index", "parametricmatrixmodels/model.py:Model.pop_module_by_key", "parametricmatrixmodels/model.py:Model.__setitem__"]}
{"id": "C34", "title": "Combining models leaves the operands intact", "statement": "`a + b` builds a new model applying a's modules then b's, and neither a nor b is changed.", "quantifier": "every pair of models", "why_tests_cant": "aliasing", "anchors": ["parametricmatrixmodels/model.py:Model.__add__"]}
{"id": "C35", "title": "Evaluation always uses the current modules", "statement": "After any sequence of edits, parameter/state/hyper-parameter changes and recompilations, calling the model evaluates the modules it currently holds (no stale cached function).", "quantifier": "every history of API calls", "why_tests_cant": "all interleavings", "anchors": ["parametricmatrixmodels/model.py:Model.__call__", "parametricmatrixmodels/model.py:Model.reset", "parametricmatrixmodels/model.py:Model.set_hyperparameters", "parametricmatrixmodels/nonsequentialmodel.py:NonSequentialModel.compile", "parametricmatrixmodels/sequentialmodel.py:SequentialModel.compile", "parametricmatrixmodels/model.py:Model.grad_input"]}
{"id": "C36", "title": "Save/load round trip of models", "statement": "Serialising and deserialising a model gives a model with the same modules, parameters, state, trainability and outputs.", "quantifier": "every nested model", "why_tests_cant": "all nestings", "anchors": ["parametricmatrixmodels/model.py:Model.serialize", "parametricmatrixmodels/model.py:Model.deserialize", "parametricmatrixmodels/modules/basemodule.py:BaseModule.serialize", "parametricmatrixmodels/modules/basemodule.py:BaseModule.deserialize"]}
{"id": "C37", "title": "Save/load round trip of every module kind", "statement": "For each built-in module kind, copying (serialise + deserialise into a fresh instance) gives a module with the same behaviour.", "quantifier": "every built-in module and every hyper-parameter setting", "why_tests_cant": "all hyper-parameter settings", "anchors": ["parametricmatrixmodels/modules/basemodule.py:BaseModule.copy", "parametricmatrixmodels/modules/lowrankaffinehermitianmatrix.py", "parametricmatrixmodels/modules/concatenateleaves.py", "parametricmatrixmodels/modules/matmul.py", "parametricmatrixmodels/modules/einsum.py", "parametricmatrixmodels/modules/affinehermitianmatrix.py"]}
{"id": "C38", "title": "Precision setting", "statement": "Setting the precision succeeds exactly for the documented spellings (64 bit only if enabled), converts every real array to the real type and every complex array to the complex type of that width, is idempotent and never changes kind (real/complex/integer).", "quantifier": "every spelling and parameter structure", "why_tests_cant": "all trees of dtypes", "anchors": ["parametricmatrixmodels/modules/basemodule.py:BaseModule.set_precision", "parametricmatrixmodels/model.py:Model.set_precision", "parametricmatrixmodels/tree_util.py:safecast", "parametricmatrixmodels/tree_util.py:astype"]}
{"id": "C39", "title": "Scaler round trips", "statement": "For each fitted scaler (standard, min-max, robust, mixed), inverse-transforming transformed data returns the data whenever the fitted scales are non-zero; transforming is strictly monotone/affine in each feature.", "quantifier": "all data and fitted parameters", "why_tests_cant": "all real data", "anchors": ["parametricmatrixmodels/preprocessing/standard_scaler.py", "parametricmatrixmodels/preprocessing/minmax_scaler.py", "parametricmatrixmodels/preprocessing/robust_scaler.py", "parametricmatrixmodels/preprocessing/mixed_scaler.py"]}
{"id": "C40", "title": "Scalers normalise", "statement": "Standard scaling gives zero mean and unit variance on the fitting data with non-constant features; min-max scaling maps the fitting data into the requested range and attains both ends.", "quantifier": "all data sets", "why_tests_cant": "all real data", "anchors": ["parametricmatrixmodels/preprocessing/standard_scaler.py", "parametricmatrixmodels/preprocessing/minmax_scaler.py", "parametricmatrixmodels/preprocessing/robust_scaler.py", "parametricmatrixmodels/preprocessing/mixed_scaler.py"]}
{"id": "C41", "title": "One-hot encoding", "statement": "After fitting, each row seen in fitting is encoded with exactly one 1, distinct rows get distinct codes, decoding an encoded row returns it, and unseen rows encode to all zeros.", "quantifier": "all data sets with any number of columns", "why_tests_cant": "all data", "anchors": ["parametricmatrixmodels/preprocessing/onehot.py"]}
{"id": "C42", "title": "Conformal coverage guarantee", "statement": "For exchangeable scores, the interval built with the calibrated quantile at level alpha covers the true value with probability at least 1-alpha: among any n+1 scores, at least (n+1)(1-alpha) are no larger than the quantile computed from the other n.", "quantifier": "every n, every alpha in (0,1), every multiset of scores", "why_tests_cant": "finite-sample guarantee for all data", "anchors": ["parametricmatrixmodels/conformal/conformalizedmodel.py:ConformalizedModel.get_qhat"]}
{"id": "C43", "title": "Conformal intervals", "statement": "The reported interval contains a value iff its normalised residual does not exceed the quantile; smaller alpha gives a wider (superset) interval; alpha outside (0,1) or an uncalibrated model is rejected.", "quantifier": "all predictions, scales and levels", "why_tests_cant": "all reals", "anchors": ["parametricmatrixmodels/conformal/conformalizedmodel.py:ConformalizedModel.__call__", "parametricmatrixmodels/conformal/conformalizedmodel.py:ConformalizedModel.get_qhat"]}
{"id": "C44", "title": "Recalibration takes effect", "statement": "After recalibrating, quantiles and intervals are those of the latest calibration data, independent of earlier queries.", "quantifier": "every history of calibrations and queries", "why_tests_cant": "all histories", "anchors": ["parametricmatrixmodels/conformal/conformalizedmodel.py:ConformalizedModel.calibrate", "parametricmatrixmodels/conformal/conformalizedmodel.py:ConformalizedModel.get_qhat"]}
{"id": "C45", "title": "Robust normalisation scales are usable", "statement": "The robust spread used for normalisation is, for every feature, either at least the threshold or the whole vector is the explicit 'no normalisation' value; it is never zero or negative.", "quantifier": "all data sets", "why_tests_cant": "all data", "anchors": ["parametricmatrixmodels/conformal/conformalizedmodel.py:ConformalizedModel.robust_normalization"]}
{"id": "C46", "title": "Weighted quantile", "statement": "The weighted quantile with equal weights is an ordinary quantile of the data: it does not depend on the order of the samples and lies between data minimum and maximum.", "quantifier": "all data and weights", "why_tests_cant": "all data", "anchors": ["parametricmatrixmodels/conformal/conformalizedmodel.py:ConformalizedModel.weighted_quantile"]}
{"id": "C47", "title": "Parametric matrix is Hermitian", "statement": "For arbitrary (also non-Hermitian) complex parameters and real features, the matrix produced by the affine Hermitian module is Hermitian, hence its eigenvalues are real.", "quantifier": "all sizes, parameters, features and smoothing values", "why_tests_cant": "all matrices", "anchors": ["parametricmatrixmodels/modules/affinehermitianmatrix.py", "parametricmatrixmodels/modules/_smoothing.py", "parametricmatrixmodels/modules/lowrankaffinehermitianmatrix.py"]}
{"id": "C48", "title": "Smoothing term is the sum of pairwise commutators", "statement": "The linear-time cumulative-sum smoothing computation equals i times the sum over all pairs of commutators, and is Hermitian for Hermitian inputs.", "quantifier": "any number of matrices of any size", "why_tests_cant": "all counts/sizes", "anchors": ["parametricmatrixmodels/modules/_smoothing.py"]}
{"id": "C49", "title": "Eigenvalue selection", "statement": "For each selection rule and each count 1 <= k <= n exactly k eigenpairs are returned, in ascending order of the sort key, they are the documented extremal/interior ones, and each eigenvector stays paired with its eigenvalue.", "quantifier": "all n, k, rules and spectra", "why_tests_cant": "all sizes", "anchors": ["parametricmatrixmodels/eigen_util.py"]}
{"id": "C50", "title": "Eigenvalue module shapes", "statement": "The announced output shape of the eigenvalue modules equals the shape of the evaluated output for every PyTree of square-matrix inputs and every count setting.", "quantifier": "all trees and counts", "why_tests_cant": "all trees", "anchors": ["parametricmatrixmodels/modules/eigenvalues.py", "parametricmatrixmodels/modules/eigenvectors.py", "parametricmatrixmodels/modules/eigensystem.py"]}
{"id": "C51", "title": "Einsum batch index is fresh", "statement": "The index letter added for the batch dimension does not occur elsewhere in the user's subscripts, is added to every data operand and the output and to no parameter operand; an omitted output lists exactly the indices occurring once, alphabetically.", "quantifier": "all subscript strings", "why_tests_cant": "all strings", "anchors": ["parametricmatrixmodels/modules/einsum.py"]}
{"id": "C52", "title": "MatMul is the matrix product of the operands in path order", "statement": "The matrix-product module with n operands computes the ordinary left-to-right matrix product.", "quantifier": "any number and sizes of operands", "why_tests_cant": "all counts", "anchors": ["parametricmatrixmodels/modules/matmul.py"]}
{"id": "C53", "title": "Reshape and flatten agree with their announced shapes", "statement": "For every PyTree input and every target (including -1 and None entries) the announced shapes equal those of the evaluated output, element order is row-major and unchanged, and impossible targets are rejected.", "quantifier": "all shapes", "why_tests_cant": "all shapes", "anchors": ["parametricmatrixmodels/modules/reshape.py", "parametricmatrixmodels/modules/flatten.py", "parametricmatrixmodels/modules/treeflatten.py", "parametricmatrixmodels/modules/treekey.py"]}
{"id": "C54", "title": "Concatenating leaves", "statement": "Concatenation along an axis of the data (never the batch axis) keeps every element, in path order, for positive and negative axes alike, and the announced shape is the real one.", "quantifier": "all trees and axes", "why_tests_cant": "all shapes", "anchors": ["parametricmatrixmodels/modules/concatenateleaves.py"]}
{"id": "C55", "title": "Composite PMM modules honour their constructor arguments", "statement": "Matrices, vectors and biases supplied by the user at construction are the ones used by the compiled module.", "quantifier": "all constructor arguments", "why_tests_cant": "all option combinations", "anchors": ["parametricmatrixmodels/modules/affineobservablepmm.py", "parametricmatrixmodels/modules/affineeigenvaluepmm.py"]}
{"id": "C56", "title": "Tuples keep their type when a structure is extended", "statement": "Extending a structure by new paths returns tuples where the given structure had tuples (as documented), at every nesting depth.", "quantifier": "every structure and list of paths", "why_tests_cant": "all nestings", "anchors": ["parametricmatrixmodels/tree_util.py:extend_structure_from_strpaths"]}
{"id": "C57", "title": "Order of paths does not matter when extending a structure", "statement": "Extending a structure with the same (path, value) pairs listed in another order gives a structure with the same content, or fails in both cases.", "quantifier": "every list of paths and every permutation of it", "why_tests_cant": "all permutations", "anchors": ["parametricmatrixmodels/tree_util.py:extend_structure_from_strpaths"]}
{"id": "C58", "title": "Predictions of the wrong shape are rejected", "statement": "A loss function applied to predictions and targets of different structure or different array shapes raises an error instead of returning a number.", "quantifier": "all trees of arrays and every named loss", "why_tests_cant": "the shapes that broadcast silently are rarely in a test suite", "anchors": ["parametricmatrixmodels/training.py:make_loss_fn", "parametricmatrixmodels/tree_util.py:sub"]}
{"id": "C59", "title": "A failed compilation does not leave a usable model", "statement": "If compile raises, the model is either unchanged or not ready; it cannot be evaluated with some modules compiled for the new input shape and others for the old one.", "quantifier": "every model and input shape", "why_tests_cant": "failures half way through are rarely tested", "anchors": ["parametricmatrixmodels/sequentialmodel.py:SequentialModel.compile", "parametricmatrixmodels/nonsequentialmodel.py:NonSequentialModel.compile"]}
{"id": "C60", "title": "The requested differentiation mode is used", "statement": "grad_input and grad_params with fwd=True or fwd=False differentiate in the requested mode, whatever calls were made before.", "quantifier": "every history of gradient calls", "why_tests_cant": "both modes give the same numbers", "anchors": ["parametricmatrixmodels/model.py:Model.grad_input", "parametricmatrixmodels/model.py:Model.grad_params"]}
{"id": "C61", "title": "Observable outputs do not depend on the choice of eigenvectors", "statement": "The outputs of ExpectationValueSum and TransitionAmplitudeSum are the documented sums for the Hermitian parts of the parameters, and stay the same when the state vectors are replaced by another orthonormal basis of the same space (other phases, order, or basis of a degenerate eigenspace).", "quantifier": "all sizes, parameters, state vectors and unitary changes of basis", "why_tests_cant": "the eigensolver's phases are fixed on one machine; the set of bases is continuous", "anchors": ["parametricmatrixmodels/modules/expectationvaluesum.py:ExpectationValueSum._get_callable", "parametricmatrixmodels/modules/transitionamplitudesum.py:TransitionAmplitudeSum._get_callable"]}
{"id": "C62", "title": "The spectrum depends on the parameters only up to a common change of basis", "statement": "Replacing all parameter matrices M by U^H M U with one unitary U turns the produced matrix A into U^H A U (smoothing included), so the eigenvalues stay the same.", "quantifier": "all sizes, parameters, features, smoothing values and unitary matrices", "why_tests_cant": "continuous family", "anchors": ["parametricmatrixmodels/modules/affinehermitianmatrix.py", "parametricmatrixmodels/modules/_smoothing.py"]}
{"id": "C63", "title": "Affine modules are affine in the features", "statement": "At the features (1-t) x + t y the affine Hermitian matrix and the affine tensor modules return (1-t) f(x) + t f(y); a wrong number of features is rejected.", "quantifier": "all shapes, parameters, features and t", "why_tests_cant": "infinitely many points", "anchors": ["parametricmatrixmodels/modules/affinehermitianmatrix.py", "parametricmatrixmodels/modules/affinetensor.py"]}
{"id": "C64", "title": "Einsum treats every sample by itself", "statement": "Applied to a batch, an Einsum module returns for sample number beta exactly what the einsum written by the user (without a batch index) returns for the parameters and the beta-th sample of every array; the batch sizes of all arrays agree and equal that of the output.", "quantifier": "all notations, array shapes, batch sizes and contents, over any numbers", "why_tests_cant": "all shapes and all index patterns; a wrong letter can agree on symmetric examples", "anchors": ["parametricmatrixmodels/modules/einsum.py"]}
{"id": "C65", "title": "Einsum announces the shape it produces", "statement": "get_output_shape of an Einsum module is the shape of the module's output without the batch dimension, for no or one parameter array.", "quantifier": "all notations, dimension maps, shapes of parameters and data", "why_tests_cant": "all index patterns", "anchors": ["parametricmatrixmodels/modules/einsum.py"]}
{"id": "C66", "title": "Well-formed networks compile", "statement": "The wiring of a graph model whose connections lead from existing nodes to existing modules is accepted by compile exactly when the output depends on the input, no module between input and output depends on itself, and everything feeding such a module depends on the input; once compiled, it returns an output whenever every module returns one.", "quantifier": "every module tree and connection dictionary", "why_tests_cant": "all graphs, names and nestings", "anchors": ["parametricmatrixmodels/nonsequentialmodel.py:NonSequentialModel.get_execution_order", "parametricmatrixmodels/nonsequentialmodel.py:NonSequentialModel._get_callable", "parametricmatrixmodels/nonsequentialmodel.py:NonSequentialModel._get_module_input_dependencies", "parametricmatrixmodels/graph_util.py:place_connections_in_tree"]}
{"id": "C67", "title": "Edits of composite modules survive compilation", "statement": "A module appended to (or added with + to) an AffineObservablePMM or AffineEigenvaluePMM is applied after the next compile, and the parameters already there are kept; compiling again for the same input shape changes nothing.", "quantifier": "all constructor arguments, modules, shapes and histories of compile calls", "why_tests_cant": "all histories", "anchors": ["parametricmatrixmodels/modules/affineobservablepmm.py:AffineObservablePMM.compile", "parametricmatrixmodels/modules/affineeigenvaluepmm.py:AffineEigenvaluePMM.compile", "parametricmatrixmodels/model.py:Model.__add__", "parametricmatrixmodels/model.py:Model.append_module"]}
{"id": "C68", "title": "Composite modules announce the shape they produce", "statement": "get_output_shape of a composite PMM module is the output shape found by compiling it.", "quantifier": "all constructor arguments, trees of input shapes and histories of compile calls", "why_tests_cant": "all option combinations", "anchors": ["parametricmatrixmodels/modules/affineobservablepmm.py:AffineObservablePMM.get_output_shape", "parametricmatrixmodels/modules/affineeigenvaluepmm.py:AffineEigenvaluePMM.get_output_shape"]}
{"id": "C69", "title": "Activation modules act sample by sample and keep the announced shape", "statement": "Every activation module (a subclass of ActivationBase) returns, for data of the input shapes, arrays of the announced shapes (the input shapes), and what it returns for one sample depends on that sample only.", "quantifier": "all activation classes, trees of shapes, batch sizes and contents", "why_tests_cant": "all shapes; the classes are generated and none is tested with shapes of every rank", "anchors": ["parametricmatrixmodels/modules/activationbase.py:ActivationBase", "parametricmatrixmodels/modules/_autogenerated_activationfuncs.py"]}
{"id": "C70", "title": "A Bias module adds its parameters and keeps the shape", "statement": "After compiling a Bias module for an input shape, every parameter tree it accepts is added to every sample (one array, or one number, to all leaves; a tree leaf by leaf), and the output has the announced shape.", "quantifier": "all constructor arguments, trees of shapes, parameters, batch sizes and contents", "why_tests_cant": "all trees and shapes; broadcasting hides a wrong shape", "anchors": ["parametricmatrixmodels/modules/bias.py:Bias.__init__", "parametricmatrixmodels/modules/bias.py:Bias.compile", "parametricmatrixmodels/modules/bias.py:Bias._get_callable", "parametricmatrixmodels/modules/bias.py:Bias.set_params"]}
{"id": "C71", "title": "A Constant module returns its constant for every sample", "statement": "A compiled Constant module returns its constant (the given one, or the trained one) once for every sample, whatever the data, and the announced shape is that of the constant.", "quantifier": "all constructor arguments, trees of shapes, batch sizes and contents", "why_tests_cant": "all trees and shapes", "anchors": ["parametricmatrixmodels/modules/constant.py:Constant.__init__", "parametricmatrixmodels/modules/constant.py:Constant.compile", "parametricmatrixmodels/modules/constant.py:Constant._get_callable", "parametricmatrixmodels/modules/constant.py:Constant.set_params"]}
{"id": "C72", "title": "A compiled PReLU multiplies negative entries with its slopes", "statement": "After any sequence of compile and set_params calls (failing ones included), a PReLU module that has been compiled for an input shape accepts data of this shape, returns data of this shape, keeps the entries >= 0 and multiplies the others with the one slope, or with the slope at their position in the parameter of their leaf.", "quantifier": "all histories, trees of shapes, parameters, batch sizes and contents", "why_tests_cant": "all histories of calls, all trees", "anchors": ["parametricmatrixmodels/modules/prelu.py:PReLU.compile", "parametricmatrixmodels/modules/prelu.py:PReLU._get_callable", "parametricmatrixmodels/modules/prelu.py:PReLU.set_params"]}
{"id": "C73", "title": "Parameters set before compiling are kept by compile", "statement": "If set_params succeeded on a Bias, Constant or PReLU module and compile succeeds afterwards, the module has the parameters that were set.", "quantifier": "all modules, parameters and shapes", "why_tests_cant": "all orders of calls", "anchors": ["parametricmatrixmodels/modules/bias.py:Bias.compile", "parametricmatrixmodels/modules/constant.py:Constant.compile", "parametricmatrixmodels/modules/prelu.py:PReLU.compile"]}
{"id": "C74", "title": "Bias corrections centre the calibration residuals", "statement": "With bias corrections switched on, calibration succeeds and the residuals (targets minus corrected predictions) of the calibration data have median zero, per output number and per stratum; later samples are shifted by exactly the amount their stratum was shifted by, samples of strata not seen in calibration are not shifted, shapes are kept, and continuous features are refused as strata.", "quantifier": "all data, structures of inputs and outputs, numbers of samples, choices of strata", "why_tests_cant": "all residuals and all partitions into strata", "anchors": ["parametricmatrixmodels/conformal/conformalizedmodel.py:ConformalizedModel.calibrate", "parametricmatrixmodels/conformal/conformalizedmodel.py:ConformalizedModel.__call__"]}
{"id": "C75", "title": "Uncertainties are first-order error estimates", "statement": "The uncertainty heuristic of a conformal model gives, for every output number of every sample, the mean squared first-order change under the selected parameters (over its normalisation), plus the same for the selected continuous inputs scaled by the interquartile ranges of the training data, plus the distance of the sample; each part is non-negative and the result has the structure and shapes of the outputs. Normalisations found by calibration are positive or infinite.", "quantifier": "all models, gradients, structures and shapes of inputs, outputs and parameters", "why_tests_cant": "all gradients, shapes and structures", "anchors": ["parametricmatrixmodels/conformal/conformalizedmodel.py:ConformalizedModel.uncertainty_heuristic", "parametricmatrixmodels/conformal/conformalizedmodel.py:ConformalizedModel.parameter_sensitivity", "parametricmatrixmodels/conformal/conformalizedmodel.py:ConformalizedModel.input_sensitivity"]}
{"id": "C76", "title": "Uncertainties of the inputs belong to their samples", "statement": "When uncertainties of the inputs are given, the uncertainty of a sample depends on the input uncertainty of that sample only, and the result keeps the shapes of the outputs.", "quantifier": "all input uncertainties and numbers of samples", "why_tests_cant": "all pairs of samples", "anchors": ["parametricmatrixmodels/conformal/conformalizedmodel.py:ConformalizedModel.input_sensitivity"]}
{"id": "C77", "title": "Input sensitivity without continuous inputs", "statement": "A conformal model with input sensitivity switched on whose selected inputs are all categorical gives an uncertainty (the term counts nothing).", "quantifier": "all selections of inputs", "why_tests_cant": "all selections and structures", "anchors": ["parametricmatrixmodels/conformal/conformalizedmodel.py:ConformalizedModel.input_sensitivity"]}
{"id": "C78", "title": "Shape comparisons", "statement": "shapes_equal is True exactly when the structures are the same and corresponding leaves agree along the given axes, has_uniform_leaf_shapes exactly when all leaves agree with each other, uniform_leaf_shapes_equal exactly when all leaves of both trees agree; they give an answer whenever the axes exist.", "quantifier": "all trees and all kinds of axes (none, integer, tuple, slice; negative too)", "why_tests_cant": "all structures and shapes", "anchors": ["parametricmatrixmodels/tree_util.py:shapes_equal", "parametricmatrixmodels/tree_util.py:has_uniform_leaf_shapes", "parametricmatrixmodels/tree_util.py:uniform_leaf_shapes_equal"]}
{"id": "C79", "title": "Distances are Gower distances", "statement": "The distance sensitivity of a sample is the mean Gower distance (range-scaled differences of selected continuous numbers, 0 or 1 for selected categories, divided by the number of features) to the distinct training samples within the cutoff, but at least the distance to the nearest one; the cutoff is the requested quantile of the distances of distinct training samples to their nearest other one.", "quantifier": "all structures of data, all selections, all training data with non-constant selected continuous features", "why_tests_cant": "all data sets and samples", "anchors": ["parametricmatrixmodels/conformal/conformalizedmodel.py:ConformalizedModel.distance_sensitivity", "parametricmatrixmodels/conformal/conformalizedmodel.py:ConformalizedModel._prepare_data_for_kdtree", "parametricmatrixmodels/conformal/conformalizedmodel.py:ConformalizedModel.calibrate"]}
{"id": "C80", "title": "Bounds of distances", "statement": "Distances are non-negative, not less than the distance to the nearest training sample, at most 1 for samples within the ranges of the training data, and 0 for samples that are training samples.", "quantifier": "all samples and training data", "why_tests_cant": "all samples and training data", "anchors": ["parametricmatrixmodels/conformal/conformalizedmodel.py:ConformalizedModel.distance_sensitivity"]}
{"id": "C81", "title": "Distances exist for all data", "statement": "Calibration and distance sensitivity accept constant features, categories that do not occur in the training data (a difference counts 1) and categorical features of several numbers.", "quantifier": "all training data and samples", "why_tests_cant": "all training data and samples", "anchors": ["parametricmatrixmodels/conformal/conformalizedmodel.py:ConformalizedModel.calibrate", "parametricmatrixmodels/conformal/conformalizedmodel.py:ConformalizedModel._prepare_data_for_kdtree"]}
{"id": "C82", "title": "Adam as published", "statement": "The optimizers move a parameter as Kingma and Ba's Adam does: after n updates it has moved by the sum of lr * (decaying average of the gradients) / (sqrt(decaying average of their squares) + eps), the averages being true averages with weights summing to one, however training is divided into batches and epochs.", "quantifier": "all gradients, learning rates and schedules, numbers of batches and epochs", "why_tests_cant": "the claim is about all histories of gradients; a short run with one batch looks right", "anchors": ["parametricmatrixmodels/training.py:adam", "parametricmatrixmodels/training.py:complex_adam", "parametricmatrixmodels/training.py:make_schedule", "parametricmatrixmodels/training.py:_train"]}
{"id": "C83", "title": "Optimizer steps are bounded", "statement": "No update moves a parameter by more than lr * sqrt(b2 / ((1 - b2) (b2 - b1^2))), whatever the gradients, the history and the epoch counter, and the first update by no more than lr; for complex parameters the same holds of the modulus.", "quantifier": "all gradients and all states reachable with the optimizer's functions (updates, direct changes of parameters, epoch increments), 0 <= b1 < 1, b1^2 < b2 < 1", "why_tests_cant": "all histories; the bound is about the worst one", "anchors": ["parametricmatrixmodels/training.py:adam", "parametricmatrixmodels/training.py:complex_adam"]}
{"id": "C84", "title": "Gradient clipping", "statement": "Clipping replaces gradient entries beyond +-clip by the nearer bound and leaves others alone; the optimizers depend on the gradients only through the clipped ones, and behave as without clipping while all entries are within the bounds. Clipping keeps the direction of a complex gradient.", "quantifier": "all gradients, states and bounds", "why_tests_cant": "all gradients", "anchors": ["parametricmatrixmodels/training.py:adam", "parametricmatrixmodels/training.py:complex_adam"]}
{"id": "C85", "title": "Complex parameters", "statement": "For real gradients the complex optimizer moves complex parameters as it moves real ones; multiplying the parameters by a phase (and the gradients by its conjugate) multiplies the result by that phase; the first step goes along minus the conjugate of the gradient.", "quantifier": "all histories of gradients, all phases", "why_tests_cant": "all histories", "anchors": ["parametricmatrixmodels/training.py:complex_adam"]}
{"id": "C86", "title": "Gradients belong to their samples", "statement": "Row i of the gradient with respect to the inputs is the derivative of the model of sample i alone, and row i of the gradient with respect to the parameters the derivative of row i of the output; neither depends on max_batch_size or avoid_recompilation.", "quantifier": "all models that treat samples one by one, all data, all batch sizes", "why_tests_cant": "all models and batch sizes; a test sees one", "anchors": ["parametricmatrixmodels/model.py:Model.grad_input", "parametricmatrixmodels/model.py:Model.grad_params", "parametricmatrixmodels/model_util.py:autobatch"]}
{"id": "C87", "title": "Gradients return the state of the forward pass", "statement": "The state that grad_input and grad_params return (and store with update_state=True) is the state that evaluating the model on the same data would give.", "quantifier": "all models, data, states and batch sizes", "why_tests_cant": "models without state do not show it", "anchors": ["parametricmatrixmodels/model.py:Model.grad_input", "parametricmatrixmodels/model.py:Model.grad_params"]}
{"id": "C88", "title": "LinearNN is an affine map and an activation", "statement": "A LinearNN compiled for data of a single array (in any tree; samples with at least one axis) computes act(W x + c) for every batch, x being the numbers of a sample in row-major order, W the (out_features, size of a sample) matrix and c the bias it reports as parameters: with the initial parameters, and with any that are set; compiling again for the same data keeps them; other numbers of arrays are refused.", "quantifier": "all shapes, trees around the array, batches, numbers of outputs, activations, with and without bias", "why_tests_cant": "all shapes and batches; the subscripts of the product are generated at run time", "anchors": ["parametricmatrixmodels/modules/linearnn.py:LinearNN.compile", "parametricmatrixmodels/modules/linearnn.py:LinearNN.deserialize", "parametricmatrixmodels/modules/matmul.py:MatMul", "parametricmatrixmodels/modules/flatten.py:Flatten", "parametricmatrixmodels/modules/bias.py:Bias"]}
{"id": "C89", "title": "LinearNN announces its output", "statement": "The shape that LinearNN.get_output_shape announces (out_features,) is the shape of its output for every activation, and after any change of out_features followed by compile.", "quantifier": "all activations, shapes and batches, all changes of out_features", "why_tests_cant": "needs the combination of an activation that changes sizes, or a second compile, with LinearNN", "anchors": ["parametricmatrixmodels/modules/linearnn.py:LinearNN.get_output_shape", "parametricmatrixmodels/modules/linearnn.py:LinearNN.compile"]}
{"id": "C90", "title": "Serialised scalers come back", "statement": "Deserialising the dictionary that serialize() of a fitted scaler returns succeeds, for every kind of scaler and for mixed scalers nested to any depth, and the result transforms and inverts all data (also fails) exactly as the original does.", "quantifier": "all five scaler classes, all trees of attributes, any nesting of mixed scalers, all data, both directions", "why_tests_cant": "all nestings of scalers and structures of data; a test fits a few", "anchors": ["parametricmatrixmodels/preprocessing/scaler.py:Scaler.serialize", "parametricmatrixmodels/preprocessing/mixed_scaler.py:MixedScaler.serialize", "parametricmatrixmodels/preprocessing/mixed_scaler.py:MixedScaler.deserialize", "parametricmatrixmodels/preprocessing/standard_scaler.py:StandardScaler.deserialize", "parametricmatrixmodels/preprocessing/minmax_scaler.py:MinMaxScaler.deserialize", "parametricmatrixmodels/preprocessing/robust_scaler.py:RobustScaler.deserialize", "parametricmatrixmodels/preprocessing/onehot.py:OneHot.deserialize"]}
{"id": "C91", "title": "Scalers saved to a file come back", "statement": "A fitted scaler that is saved with save() and loaded with from_file() transforms and inverts all data exactly as the original does.", "quantifier": "all scalers, all structures of the data they were fitted to", "why_tests_cant": "depends on what numpy makes of each structure of python values; a test saves a scaler of one array", "anchors": ["parametricmatrixmodels/preprocessing/scaler.py:Scaler.save", "parametricmatrixmodels/preprocessing/scaler.py:Scaler.load", "parametricmatrixmodels/preprocessing/mixed_scaler.py:MixedScaler.deserialize", "parametricmatrixmodels/preprocessing/minmax_scaler.py:MinMaxScaler.deserialize"]}
{"id": "C92", "title": "Saved conformal models come back", "statement": "A conformal model that was calibrated any number of times, and used in between, can be serialised and deserialised, also through a file, and the result answers every sequence of calls, quantiles, uncertainties and sensitivities (and the name) exactly as the original does.", "quantifier": "all wrapped models, all histories of calibrations and calls, all sequences of later calls, all numerical components", "why_tests_cant": "all histories and sequences of calls; a test compares one prediction of one model", "anchors": ["parametricmatrixmodels/conformal/conformalizedmodel.py:ConformalizedModel.serialize", "parametricmatrixmodels/conformal/conformalizedmodel.py:ConformalizedModel.deserialize", "parametricmatrixmodels/conformal/conformalizedmodel.py:ConformalizedModel.save", "parametricmatrixmodels/conformal/conformalizedmodel.py:ConformalizedModel.from_file", "parametricmatrixmodels/conformal/conformalizedmodel.py:ConformalizedModel.name"]}
{"id": "C93", "title": "A rejected calibration changes nothing", "statement": "If calibrate raises an exception, the conformal model answers everything as it did before.", "quantifier": "all conformal models, all arguments of calibrate that are refused at any stage", "why_tests_cant": "needs a failure at each of the stages, after a successful calibration", "anchors": ["parametricmatrixmodels/conformal/conformalizedmodel.py:ConformalizedModel.calibrate", "parametricmatrixmodels/conformal/conformalizedmodel.py:ConformalizedModel.__call__"]}
{"id": "C94", "title": "Calibration starts afresh", "statement": "After a successful calibration, the scores, uncertainties, distances and predictions with intervals are those of a new object calibrated with the same arguments, whatever calibrations came before; and whether a calibration succeeds does not depend on them.", "quantifier": "all histories of the object, all arguments of calibrate, all later calls", "why_tests_cant": "all histories; left-over attributes show only for particular combinations of arguments", "anchors": ["parametricmatrixmodels/conformal/conformalizedmodel.py:ConformalizedModel.calibrate", "parametricmatrixmodels/conformal/conformalizedmodel.py:ConformalizedModel.uncertainty_heuristic", "parametricmatrixmodels/conformal/conformalizedmodel.py:ConformalizedModel.distance_sensitivity", "parametricmatrixmodels/conformal/conformalizedmodel.py:ConformalizedModel.input_sensitivity", "parametricmatrixmodels/conformal/conformalizedmodel.py:ConformalizedModel.__call__"]}
{"id": "C95", "title": "Frozen modules keep their parameters in Model.train", "statement": "After Model.train, every module whose trainable flag is False, at whatever depth of nested models, has the parameters it had before.", "quantifier": "all models of modules and models, all settings of the flags, all parameters, all trainings that leave arrays flagged as not trainable unchanged", "why_tests_cant": "the flag of a nested model is derived from its modules; a test freezes modules of a flat model", "anchors": ["parametricmatrixmodels/model.py:Model.train", "parametricmatrixmodels/model.py:Model.get_trainable_modules", "parametricmatrixmodels/model.py:Model.trainable", "parametricmatrixmodels/modules/basemodule.py:BaseModule.freeze", "parametricmatrixmodels/modules/basemodule.py:BaseModule.unfreeze"]}
{"id": "C96", "title": "Parameters are set as given or not at all", "statement": "After a successful set_params, get_params returns what was given, and the trainable flags are as before; setting what get_params returns changes nothing; and if set_params raises an exception the model has its old parameters.", "quantifier": "all models of modules and models, all trees of parameters", "why_tests_cant": "all nestings and all trees that do not fit at some depth", "anchors": ["parametricmatrixmodels/model.py:Model.set_params", "parametricmatrixmodels/model.py:Model.get_params"]}
{"id": "C97", "title": "The number of parameters does not depend on nesting", "statement": "get_num_trainable_floats of a model is the sum over its modules however they are nested, None exactly if some module has none yet, and, for modules that do not define their own count, the number of real numbers in get_params (two for a complex entry).", "quantifier": "all models of modules and models, all parameters", "why_tests_cant": "all nestings; a test counts one model", "anchors": ["parametricmatrixmodels/model.py:Model.get_num_trainable_floats", "parametricmatrixmodels/modules/basemodule.py:BaseModule.get_num_trainable_floats"]}
{"id": "C98", "title": "Compiled models accept exactly data of their shape", "statement": "Calling a compiled model succeeds in checking its input exactly if the input has the structure the model was compiled for, every array has a first axis for the samples followed by the compiled shape, and all arrays have the same number of samples; other input raises ValueError before anything is computed, and a model that is not ready raises RuntimeError.", "quantifier": "all compiled shapes and all input trees", "why_tests_cant": "all structures of data; shapes are compared as trees of numbers, where different things can look alike", "anchors": ["parametricmatrixmodels/model.py:Model._verify_input", "parametricmatrixmodels/model.py:Model.__call__", "parametricmatrixmodels/tree_util.py:all_equal", "parametricmatrixmodels/tree_util.py:get_shapes"]}
{"id": "C99", "title": "Comparison of trees answers correctly", "statement": "all_equal returns True exactly for trees of the same structure with equal arrays and values, all_close exactly for trees of the same structure and shapes with close numbers; both always answer.", "quantifier": "all pairs of trees of arrays and values", "why_tests_cant": "all structures, shapes and kinds of leaves", "anchors": ["parametricmatrixmodels/tree_util.py:all_equal", "parametricmatrixmodels/tree_util.py:all_close"]}
{"id": "C100", "title": "Compiled matrix modules run and give what they announce", "statement": "AffineHermitianMatrix, LowRankAffineHermitianMatrix, AffineTensor, ExpectationValueSum and TransitionAmplitudeSum, once compiled for a shape, accept batches of any size of that shape, also after any further accepted call of set_params, and return arrays of the shape get_output_shape announces.", "quantifier": "all sequences of construction, set_hyperparameters, set_params and compile; all shapes and batch sizes", "why_tests_cant": "all orders of the calls and all sizes; wrong sizes are only noticed when the module is used", "anchors": ["parametricmatrixmodels/modules/affinehermitianmatrix.py:AffineHermitianMatrix.compile", "parametricmatrixmodels/modules/lowrankaffinehermitianmatrix.py:LowRankAffineHermitianMatrix.set_params", "parametricmatrixmodels/modules/affinetensor.py:AffineTensor.compile", "parametricmatrixmodels/modules/expectationvaluesum.py:ExpectationValueSum.set_params", "parametricmatrixmodels/modules/transitionamplitudesum.py:TransitionAmplitudeSum.set_params"]}
{"id": "C101", "title": "Stored matrices stay Hermitian and survive compilation", "statement": "The matrices of AffineHermitianMatrix and the observables of ExpectationValueSum and TransitionAmplitudeSum pass the Hermiticity test whatever methods were called; compiling a module that has parameters never changes it; and once compiled, the hyper-parameters can no longer be changed.", "quantifier": "all sequences of construction, set_hyperparameters, set_params and compile, all shapes", "why_tests_cant": "all orders of the calls", "anchors": ["parametricmatrixmodels/modules/affinehermitianmatrix.py:AffineHermitianMatrix.set_params", "parametricmatrixmodels/modules/expectationvaluesum.py:ExpectationValueSum.compile", "parametricmatrixmodels/modules/transitionamplitudesum.py:TransitionAmplitudeSum.compile", "parametricmatrixmodels/modules/affinehermitianmatrix.py:AffineHermitianMatrix.set_hyperparameters"]}
{"id": "C102", "title": "Training starts from the current parameters", "statement": "train starts from the parameters get_params returns, whether resumed or not: without any epoch it leaves them as they are. A training that is not resumed does not depend on earlier trainings except through parameters, states and key; resuming a model that was never trained is refused and changes nothing.", "quantifier": "all sequences of train, set_params, changes of trainable flags, set_state and edits; all data, losses, optimisers and settings", "why_tests_cant": "all orders of calls; the stored optimiser state is not visible from outside", "anchors": ["parametricmatrixmodels/model.py:Model.train", "parametricmatrixmodels/model.py:Model.set_params", "parametricmatrixmodels/model.py:Model.reset", "parametricmatrixmodels/training.py:train"]}
{"id": "C103", "title": "Models share modules only by using the same objects", "statement": "Modules are objects, and a module can be in several models or several times in one. Methods of a model (set_params, train, compile, the trainable flag) leave every model that shares no module with it as it is; a model in which no module occurs twice behaves as if its modules were its own; parameters that were set or trained are the ones get_params returns.", "quantifier": "all models as nested trees of module objects, all modules, all sequences of method calls on any of the models, all parameters", "why_tests_cant": "all ways of sharing, all nestings and all orders of calls", "anchors": ["parametricmatrixmodels/model.py:Model.set_params", "parametricmatrixmodels/model.py:Model.get_params", "parametricmatrixmodels/model.py:Model.train", "parametricmatrixmodels/model.py:Model.compile", "parametricmatrixmodels/modules/basemodule.py:BaseModule.set_params"]}
{"id": "C104", "title": "Copies of models are independent and behave like the original", "statement": "A copied model has the same structure with copies of the modules; whatever is done to the copy leaves the original and every other model as they are, and the other way round; and the same call has the same effect on the copy as on the original.", "quantifier": "all models as nested trees of module objects, all modules, all sequences of method calls afterwards", "why_tests_cant": "all ways of sharing modules and all sequences of calls", "anchors": ["parametricmatrixmodels/modules/basemodule.py:BaseModule.copy", "parametricmatrixmodels/model.py:Model.serialize", "parametricmatrixmodels/model.py:Model.deserialize", "parametricmatrixmodels/model.py:Model.set_params"]}
{"id": "C105", "title": "Conformal models do not influence each other", "statement": "What a ConformalizedModel answers depends only on its own calibrations and questions: calibrating or asking another one, also one that was restored from it, changes nothing, and a restored one starts as the original is.", "quantifier": "all sequences of construction, calibrate, get_qhat, serialize/deserialize and save/from_file on any number of models", "why_tests_cant": "all interleavings of calls on several models; the shared dictionary is not visible from outside", "anchors": ["parametricmatrixmodels/conformal/conformalizedmodel.py:ConformalizedModel.get_qhat", "parametricmatrixmodels/conformal/conformalizedmodel.py:ConformalizedModel.serialize", "parametricmatrixmodels/conformal/conformalizedmodel.py:ConformalizedModel.deserialize"]}
{"id": "C106", "title": "Compiling a sequential model compiles every module for what it gets", "statement": "If compile succeeds, every module of the model, also in models inside it, is in the end what its compile makes of it for the shape that the modules before it produce, with the key split off for it; and if the modules can be compiled one after the other in this way, and no model in it produces data without axes, compile succeeds.", "quantifier": "all sequential models as nested trees of module objects, all modules, shapes and keys", "why_tests_cant": "all nestings and all ways of sharing modules", "anchors": ["parametricmatrixmodels/sequentialmodel.py:SequentialModel.compile", "parametricmatrixmodels/modules/flatten.py:Flatten.compile"]}
{"id": "C107", "title": "The progress line shows the latest text and nothing else", "statement": "After update and end of the progress bar, the line on the terminal shows exactly the label, the information, the bar and the time of that call, without remnants of longer texts shown before; end with clearline leaves a blank line; nothing is written when there is nothing to do.", "quantifier": "all sequences of ProgressBar(...), start, update and end with any texts, numbers and times", "why_tests_cant": "all lengths of texts and all orders of calls", "anchors": ["parametricmatrixmodels/progressbar.py:ProgressBarSingleton.update", "parametricmatrixmodels/progressbar.py:ProgressBarSingleton.end", "parametricmatrixmodels/progressbar.py:ProgressBarSingleton.reset", "parametricmatrixmodels/progressbar.py:ProgressBarSingleton.start"]}
{"id": "C108", "title": "The progress bar never goes back and predicts the time that is left", "statement": "Between two starts the number of filled places on the screen never decreases and is the fraction of progress times the length, rounded down; the seconds shown are the time the rest takes at the same pace, rounded down, and never negative.", "quantifier": "all sequences of calls with progress between 0 and the total and times that do not go back", "why_tests_cant": "all numbers and orders of calls", "anchors": ["parametricmatrixmodels/progressbar.py:ProgressBarSingleton.update"]}
{"id": "C109", "title": "What a calibrated conformal model answers follows from the last calibration", "statement": "After a successful calibrate, the uncertainty of an input is the sum of the selected terms (parameters, and with training data inputs and distances), each divided by its size on the calibration data, and a call gives the corrected prediction and for each level the interval of the quantile of the calibration scores times the uncertainty; nothing that happened to the object before matters; a method for a term that is not selected gives None.", "quantifier": "all objects, arguments of calibrate, inputs, uncertainties and levels; all models and numerical functions", "why_tests_cant": "all states before the calibration and all combinations of flags, trees of flags, training data and corrections", "anchors": ["parametricmatrixmodels/conformal/conformalizedmodel.py:ConformalizedModel.calibrate", "parametricmatrixmodels/conformal/conformalizedmodel.py:ConformalizedModel.uncertainty_heuristic", "parametricmatrixmodels/conformal/conformalizedmodel.py:ConformalizedModel.parameter_sensitivity", "parametricmatrixmodels/conformal/conformalizedmodel.py:ConformalizedModel.input_sensitivity", "parametricmatrixmodels/conformal/conformalizedmodel.py:ConformalizedModel.__call__"]}
{"id": "C110", "title": "A compiled Einsum or MatMul module can be called", "statement": "If compile succeeds, every batch of data of the compiled shapes, also an empty one, is evaluated, to an array of the sizes of the output letters (MatMul: of the size output_shape asks for); compiling again for the same shapes succeeds and changes nothing; a module that reports to be ready can be called.", "quantifier": "all notations, shapes, given sizes, parameters and arguments of MatMul; all batches; all sequences of compile and call", "why_tests_cant": "all notations and shapes; whether a module is usable after compile shows only when it is called", "anchors": ["parametricmatrixmodels/modules/einsum.py:Einsum.compile", "parametricmatrixmodels/modules/einsum.py:Einsum._get_callable", "parametricmatrixmodels/modules/einsum.py:Einsum.is_ready", "parametricmatrixmodels/modules/matmul.py:MatMul.compile"]}
{"id": "C111", "title": "A composite module compiles exactly when its arguments fit the data", "statement": "For data of one axis, compile of AffineObservablePMM and AffineEigenvaluePMM succeeds exactly if the size of the matrices is known and positive, supplied matrices and observables are Hermitian and of the shapes that number of features, bias term, size, secondaries and output size imply, not more eigenvalues or eigenvectors are asked for than there are, and the rule is one of the eight names in any case; whatever was compiled before.", "quantifier": "all arguments of the constructors, all shapes of bare arrays, all sequences of earlier compile calls with any outcome", "why_tests_cant": "all combinations of optional arguments, and all histories of failed compilations", "anchors": ["parametricmatrixmodels/modules/affineobservablepmm.py:AffineObservablePMM.compile", "parametricmatrixmodels/modules/affineeigenvaluepmm.py:AffineEigenvaluePMM.compile", "parametricmatrixmodels/sequentialmodel.py:SequentialModel.compile"]}
{"id": "C112", "title": "The reported number of trainable floats is the number of degrees of freedom", "statement": "get_num_trainable_floats of a ready module is the number of independent real numbers that determine its parameters: there is a linear one-to-one correspondence between that many real numbers and the parameters of the same shapes and dtypes that set_params accepts (Hermitian matrices for AffineHermitianMatrix, ExpectationValueSum and TransitionAmplitudeSum). For a model it is the sum.", "quantifier": "all sizes, all numbers of matrices, all module kinds with arrays, every field of numbers in which 2 is not 0", "why_tests_cant": "all sizes; degrees of freedom are a statement about all parameter values", "anchors": ["parametricmatrixmodels/modules/affinehermitianmatrix.py:AffineHermitianMatrix.get_num_trainable_floats", "parametricmatrixmodels/modules/lowrankaffinehermitianmatrix.py:LowRankAffineHermitianMatrix.get_num_trainable_floats", "parametricmatrixmodels/modules/expectationvaluesum.py:ExpectationValueSum.get_num_trainable_floats", "parametricmatrixmodels/modules/transitionamplitudesum.py:TransitionAmplitudeSum.get_num_trainable_floats", "parametricmatrixmodels/modules/basemodule.py:BaseModule.get_num_trainable_floats", "parametricmatrixmodels/model.py:Model.get_num_trainable_floats"]}
{"id": "C113", "title": "The intervals of a calibrated ConformalizedModel have the documented coverage", "statement": "The class documentation promises that calibration turns the uncertainty heuristic into a rigorous guarantee on the coverage of the prediction intervals (and names uncertain labels as the only thing that breaks it). As a counting statement: for every n+1 samples and every alpha with 1/(n+1) <= alpha < 1, at least (n+1)(1-alpha) of the samples have their target in the interval that a model calibrated with the other n samples gives for them. This holds if the heuristic has one term and no bias is corrected. It is false with two terms, because their relative weights are fitted to the calibration data, and false with a global bias correction, because the bias is fitted to them. In all cases at least the fraction 1 - alpha of the calibration samples themselves lie in the intervals that the calibrated model gives for them.", "quantifier": "all numbers of samples, all predictions, targets and sensitivities, all levels alpha that n samples can reach; the two failures for all eps in (0, 1]", "why_tests_cant": "coverage is a statement about all data sets; a test on one data set sees intervals of plausible width", "anchors": ["parametricmatrixmodels/conformal/conformalizedmodel.py:ConformalizedModel.calibrate", "parametricmatrixmodels/conformal/conformalizedmodel.py:ConformalizedModel.__call__", "parametricmatrixmodels/conformal/conformalizedmodel.py:ConformalizedModel.uncertainty_heuristic"]}
{"id": "C114", "title": "Modules are read and replaced by path", "statement": "model[path] returns the object in the place the path leads to, through containers and nested models, and fails otherwise. model[path] = x succeeds exactly if the last container can take it, then replaces what the path leads to (or adds an entry to a dictionary) and nothing else, and model[path] is x afterwards; a refused assignment moves no module. Afterwards no model that contains the place counts as compiled, and paths as reported by jax.tree_util (the annotated type) can be used.", "quantifier": "all nestings of lists, tuples, dictionaries and models, all paths, all objects assigned", "why_tests_cant": "all nestings and paths; a model that wrongly stays compiled gives plausible results", "anchors": ["parametricmatrixmodels/model.py:Model.__getitem__", "parametricmatrixmodels/model.py:Model.__setitem__"]}
{"id": "C115", "title": "A model that is not ready says why", "statement": "is_ready answers True exactly if the model has modules, all of them, also inside nested models, are ready, and both shapes are set. If it answers False, the reason given in the error message is true: no modules, the complete list of modules that are not ready, or the shape that is missing, and never 'Unknown reason.'.", "quantifier": "all nestings of modules, containers and models", "why_tests_cant": "all nestings; messages are rarely tested", "anchors": ["parametricmatrixmodels/model.py:Model.is_ready", "parametricmatrixmodels/model.py:Model._get_all_unready_modules", "parametricmatrixmodels/model.py:Model._get_unready_reason", "parametricmatrixmodels/nonsequentialmodel.py:NonSequentialModel.is_ready"]}
{"id": "C116", "title": "Texts of models show their modules", "statement": "Apart from indentation, the text of a model (and of any tree given to strfmt_pytree) consists of the brackets, the keys and the lines of every leaf, in order and once; a graph model lists every connection on a line of its own. Lines of leaves are not longer than max_leaf_chars. Closing brackets stand below their opening brackets, and parentheses match.", "quantifier": "all trees, texts of leaves, indentations, limits, names and connections", "why_tests_cant": "all nestings, limits and leaf texts with any number of lines", "anchors": ["parametricmatrixmodels/tree_util.py:strfmt_pytree", "parametricmatrixmodels/model.py:Model.__repr__", "parametricmatrixmodels/nonsequentialmodel.py:NonSequentialModel.__repr__", "parametricmatrixmodels/modules/basemodule.py:BaseModule.__repr__"]}
{"id": "C117", "title": "Fine-tuning: saving and loading does not disturb training, and frozen modules stay as they are", "statement": "A model that is saved and loaded is the model there was, with the optimiser states, so that a save and load between any two trainings or changes of flags changes no later result and nothing of the final model (training with resume=True included). A module that is frozen at every training of such a history has at the end the parameters it had at the beginning. It is false that a frozen module keeps its parameters in every training: if parameters were set by hand since the last training, train(resume=True) puts those of the last training back, also into frozen modules.", "quantifier": "all models of modules that can be saved and accept their own parameters, at any depth; all sequences of trainings, changes of flags, saves and loads", "why_tests_cant": "the test of fine-tuning has one model and one history; the statement is about all of them", "anchors": ["parametricmatrixmodels/model.py:Model.train", "parametricmatrixmodels/model.py:Model.serialize", "parametricmatrixmodels/model.py:Model.deserialize", "parametricmatrixmodels/model.py:Model.get_trainable_modules", "parametricmatrixmodels/training.py:train"]}
{"id": "C118", "title": "Module classes are checked when they are defined", "statement": "A class derived from BaseModule of which objects can be made has a valid version string and, if its constructor calls its first parameter self, can be constructed without arguments (as loading a model requires); a class statement that violates this raises an exception, abstract classes are always accepted, and nothing else is refused. The documentation also says that all methods of all subclasses are type checked at run time; this is false for methods inherited from abstract classes.", "quantifier": "all hierarchies of classes with single inheritance, all methods, signatures and versions", "why_tests_cant": "a statement about classes that users have not written yet", "anchors": ["parametricmatrixmodels/modules/basemodule.py:BaseModule.__init_subclass__"]}
{"id": "C119", "title": "What is saved under a name is loaded under that name", "statement": "After save or save_compressed with a file name (string or pathlib.Path), load or from_file with the same argument reads what was saved, for models, scalers and conformal models; saving writes one file, whose name ends in .npz, and touches no other. This is false for conformal models saved under a name without .npz, and for all three when such a name is given as a Path: loading looks for a file without the suffix, and finds nothing or another file.", "quantifier": "all names, all contents of the directory", "why_tests_cant": "a test uses one name, usually with the suffix", "anchors": ["parametricmatrixmodels/model.py:Model.save", "parametricmatrixmodels/model.py:Model.save_compressed", "parametricmatrixmodels/model.py:Model.load", "parametricmatrixmodels/model.py:Model.from_file", "parametricmatrixmodels/preprocessing/scaler.py:Scaler.save", "parametricmatrixmodels/preprocessing/scaler.py:Scaler.load", "parametricmatrixmodels/conformal/conformalizedmodel.py:ConformalizedModel.save", "parametricmatrixmodels/conformal/conformalizedmodel.py:ConformalizedModel.from_file"]}
{"id": "C120", "title": "Files of other versions", "statement": "With strict_package_version=True a model is loaded exactly if it can be loaded without it and every package version noted in the data, for the model and for the modules at every depth, is the present one; the result is the same. Without it the package versions do not matter, each module whose own version differs is loaded from what its upgrade method makes of its data, and modules of the present version are never upgraded. It is false that a refused file leaves the model as it was: it has been reset. A conformal model looks only at its own package version, so with strict_package_version=True it is false that a model of another version inside it is refused.", "quantifier": "all saved models with nested models, all versions, all upgrade methods", "why_tests_cant": "there is only one version of every module so far, so no test can load an older file", "anchors": ["parametricmatrixmodels/modules/basemodule.py:BaseModule.deserialize", "parametricmatrixmodels/modules/basemodule.py:BaseModule.upgrade", "parametricmatrixmodels/model.py:Model.deserialize", "parametricmatrixmodels/conformal/conformalizedmodel.py:ConformalizedModel.deserialize"]}
{"id": "C121", "title": "A precision that is set lasts", "statement": "After set_precision or astype all parameters of the model have the precision asked for, and they keep it through training, freezing, setting parameters of that precision and edits, until another one is set. This is false of training that is resumed with optimiser states from before: it always brings the old precision back.", "quantifier": "all sequences of operations, all parameters", "why_tests_cant": "a test trains in one precision", "anchors": ["parametricmatrixmodels/model.py:Model.set_precision", "parametricmatrixmodels/model.py:Model.astype", "parametricmatrixmodels/model.py:Model.train"]}
{"id": "C122", "title": "Gradients are taken in a direction that fits", "statement": "A gradient (grad_input, grad_params) that can be taken forward or backward exists when it is asked for; if no direction is asked for, it is taken forward exactly if fewer numbers go into the model than come out. Training in reverse is possible exactly if something is trainable, forward exactly if moreover all trainable parameters are real. The first sentence is false of the code: sizes are added up where they should be multiplied, complex numbers (the default of the matrix modules) are not considered, and a first gradient that fails makes all later ones with the same batching options fail, whichever direction is asked for.", "quantifier": "all shapes and kinds of numbers, all sequences of gradients", "why_tests_cant": "a test takes one gradient of one model", "anchors": ["parametricmatrixmodels/model.py:Model.grad_params", "parametricmatrixmodels/model.py:Model.grad_input", "parametricmatrixmodels/training.py:train"]}
{"id": "C123", "title": "Initial parameters are drawn independently", "statement": "When compile initialises the modules of a model, nested sequential and graph models included, no random key is used for two arrays (or for the real and the imaginary part of one), and no key is used from which another one that is used was obtained. In a sequential model the initial parameters of a module depend neither on the modules behind it nor on whether other modules were given their parameters beforehand. Complex initial parameters have real and imaginary parts of the same size.", "quantifier": "all module classes that draw parameters, all nestings of sequential and graph models, all shapes, all seeds, any subset of modules with given parameters", "why_tests_cant": "Keys that coincide give correlated numbers that look random in every single array; whether two of them coincide depends on the whole model, of which there are infinitely many.", "anchors": ["parametricmatrixmodels/sequentialmodel.py:124-150", "parametricmatrixmodels/nonsequentialmodel.py:484-526", "parametricmatrixmodels/modules/bias.py:204-248", "parametricmatrixmodels/modules/einsum.py:718-739", "parametricmatrixmodels/modules/affinetensor.py:191-209", "parametricmatrixmodels/modules/lowrankaffinehermitianmatrix.py:240-259"]}
{"id": "C124", "title": "Every training step has random numbers of its own", "statement": "The keys with which the model is called in the training steps that led to the returned parameters are independent of each other and of the key that is returned (which later predictions and trainings use), and so are the keys of all modules inside nested sequential models. No module gets in a validation a key that another gets in a training step.", "quantifier": "all training runs (data, batch sizes, numbers of epochs, losses, callbacks, stopping rules), all nestings of sequential models", "why_tests_cant": "Repeated keys do not change the type or shape of anything, and a training with repeated random numbers still converges in most cases.", "anchors": ["parametricmatrixmodels/training.py:333", "parametricmatrixmodels/training.py:1068", "parametricmatrixmodels/training.py:977-992", "parametricmatrixmodels/sequentialmodel.py:303-304", "parametricmatrixmodels/model.py:1205-1247"]}
{"id": "C125", "title": "Interrupting a training", "statement": "In a verbose training the first SIGINT or SIGTERM ends the training after the current epoch without an exception, and signals that arrived before it have no influence. A second signal while it runs ends it at once with KeyboardInterrupt. Signals that arrive outside of a verbose training do what they do in Python. The last two are false: once the loop of a verbose training runs a second signal has no effect, and after such a training no signal has an effect any more in the process, so that it can neither be interrupted nor terminated, and later trainings with verbose=False run to their end. Signals keep their meaning exactly as long as no verbose training has been started in the main thread; outside the main thread a verbose training (the default) fails.", "quantifier": "all sequences of trainings and signals, any number of signals at any time, all reasons to stop", "why_tests_cant": "A test would have to send signals to its own process; the effect shows after the training that was tested.", "anchors": ["parametricmatrixmodels/training.py:GracefulKiller", "parametricmatrixmodels/training.py:_train"]}
{"id": "C126", "title": "The announced shape of a function module", "statement": "A module made from a function f by subclassing FuncBase accepts in compile exactly the shapes it can be called with, and the output shape it announces is the shape of what it returns, for every number of samples; an f that fails on the trial input is reported as RuntimeError. True if f treats every sample on its own and the shapes of its result depend on the shapes of its argument only (such functions may be composed). False otherwise: the trial run has one sample, so that f=squeeze announces the wrong shape, and an f that adds up the samples passes compile and fails in every call with more than one sample.", "quantifier": "all functions on trees of arrays, all input shapes, all numbers of samples and all data", "why_tests_cant": "The function is written by the user; a test has a few of them.", "anchors": ["parametricmatrixmodels/modules/funcbase.py:FuncBase.get_output_shape", "parametricmatrixmodels/modules/funcbase.py:FuncBase.compile", "parametricmatrixmodels/modules/funcbase.py:FuncBase._get_callable"]}
{"id": "C127", "title": "Models inside models are compiled for what they get", "statement": "After compile has succeeded, every module in the model and in the models inside it was compiled for the shape that the modules before it give, and every one of these models announces the shape it gives; this stays so when the model is compiled again for other shapes. get_output_shape answers with the shape that input of the given shape would lead to. True of models in which no model has been compiled before, and of all models made of sequential models only. False of a graph model with a sequential model inside that was compiled before: the modules behind it are compiled for the shape it gave then, and the graph model announces a wrong shape. get_output_shape of a compiled model ignores its argument.", "quantifier": "all nestings of sequential and graph models, all modules, all shapes, any number of compilations", "why_tests_cant": "A test compiles a fresh model; the failure needs a model that was compiled for one shape and is then used inside another one.", "anchors": ["parametricmatrixmodels/sequentialmodel.py:SequentialModel.compile", "parametricmatrixmodels/sequentialmodel.py:SequentialModel.get_output_shape", "parametricmatrixmodels/nonsequentialmodel.py:NonSequentialModel.compile", "parametricmatrixmodels/nonsequentialmodel.py:NonSequentialModel.get_output_shape"]}
{"id": "C128", "title": "A callback that keeps the parameters within a set", "statement": "If the callback of a training always answers with parameters within some set (a projection, a normalisation) and the initial parameters are in it, then every training step and every epoch starts with parameters in the set and the parameters that train leaves in the model are in it. True of the start of every epoch only: the callback is called after each epoch and not, as documented, after each training step, and the parameters that are kept as the best ones are those before the callback got them. What the callback does after the last epoch has no influence on anything, so that with epochs=1 it has no effect at all.", "quantifier": "all sets of parameters, all callbacks, losses, data, batch sizes, numbers of epochs and reasons to stop", "why_tests_cant": "A test checks that the callback is called; that the result of the training is not what the callback returned shows only for a callback that changes something.", "anchors": ["parametricmatrixmodels/training.py:1005-1025", "parametricmatrixmodels/training.py:1033-1049", "parametricmatrixmodels/training.py:490-493"]}
{"id": "C129", "title": "A model inside a model is its modules in place", "statement": "A sequential model whose modules are (partly) sequential models, to any depth, returns for the same parameters and states the output of the sequential model made of the innermost modules in order, and stores for each of them the state that model stores; one fails exactly if the other does. This holds for modules that do not use random numbers; modules that do are given the keys of the nested splits, so that writing out an inner model changes their random numbers.", "quantifier": "all modules, all nestings, all parameters (other than None) and states, all data, training or not, all random keys", "why_tests_cant": "There is no end of nestings, and the models of the tests are not nested.", "anchors": ["parametricmatrixmodels/sequentialmodel.py:SequentialModel._get_callable", "parametricmatrixmodels/model.py:302", "parametricmatrixmodels/model.py:363"]}
{"id": "C130", "title": "Every epoch is shuffled anew", "statement": "In every epoch of a training the training data and the validation data are shuffled with random keys that are independent of each other, of those of all other epochs, and of the keys with which the model is called in the training steps. The last is true if neither of the model's key and batch_rng was obtained from the other; it is false if the same seed is given to both: the keys that shuffle the epochs are then keys of training steps. The first holds for callbacks that leave the key alone (as the default does).", "quantifier": "all training runs (data, batch sizes, numbers of epochs, losses, stopping rules), all keys", "why_tests_cant": "The orders look random in each case; only by comparing the keys it shows that they repeat.", "anchors": ["parametricmatrixmodels/training.py:885-898", "parametricmatrixmodels/training.py:978-992", "parametricmatrixmodels/training.py:1068", "parametricmatrixmodels/training.py:1625-1634", "parametricmatrixmodels/model.py:128-133"]}
{"id": "C131", "title": "Editing a graph model does not rewire it", "statement": "If a module is added to a graph model, or one that no connection mentions is taken away, the model afterwards computes with the same connections what it computed before; if a module that a connection mentions is taken away, the next compilation is refused. True if the modules are in a dictionary, for all edits, and for modules appended to a list. False of lists otherwise: connections name modules by their positions, so that a module inserted or prepended, or the removal of an unconnected one, silently makes the connections mean other modules.", "quantifier": "all networks of the safe class, all connections, all edits at all positions, all modules, parameters and states", "why_tests_cant": "A test builds the model it wants; the wrong model after an edit compiles and runs like any other.", "anchors": ["parametricmatrixmodels/model.py:Model.insert_module", "parametricmatrixmodels/model.py:Model.append_module", "parametricmatrixmodels/model.py:Model.prepend_module", "parametricmatrixmodels/model.py:Model.pop_module_by_index", "parametricmatrixmodels/model.py:Model.pop_module_by_key", "parametricmatrixmodels/nonsequentialmodel.py:NonSequentialModel.compile"]}
{"id": "C132", "title": "A mixed scaler scales each part by its own data", "statement": "After a mixed scaler was fitted, transform and inverse_transform scale each part of the data by the statistics of that part of the data of the last fit and of nothing else, leave the parts without a scaler alone, and succeed on data of the same structure if the scalers do; fitting (even if it raises) does not change what other scalers do. True to any depth of mixed scalers within mixed scalers if every scaler object is used in one place. False if one object is used twice: the tree holds references, so that MixedScaler({'a': s, 'b': s}) scales both parts by the statistics of 'b', and of two mixed scalers with an object in common the one fitted last changes the other.", "quantifier": "all trees of scalers and data, all scaler classes, all depths of nesting, all histories of earlier fits", "why_tests_cant": "The tests give every entry a scaler of its own; a shared one is fitted and transforms without complaint.", "anchors": ["parametricmatrixmodels/preprocessing/mixed_scaler.py:MixedScaler.fit", "parametricmatrixmodels/preprocessing/mixed_scaler.py:MixedScaler.transform", "parametricmatrixmodels/preprocessing/mixed_scaler.py:MixedScaler.inverse_transform"]}
{"id": "C133", "title": "Every module name that a graph model accepts can be used", "statement": "NonSequentialModel({k: module}, {'input': k, k: 'output'}) returns what the module returns, and its new state under k, for every name k that the constructor accepts. True exactly for the non-empty names without the separator that do not begin with 'output'. False otherwise: a name with the separator is accepted and the model never runs; the empty name is accepted and the model does not compile; with a name like 'output_layer' the model silently returns a dictionary of the module's input and output instead of its output. 'input' and 'output' themselves are refused by the constructor but not by append_module, insert_module or item assignment.", "quantifier": "all names, separators, modules, parameters, states, data and keys", "why_tests_cant": "The tests use short letters and M1, M2, ... as names; an output with an extra entry of the same shapes is not an error.", "anchors": ["parametricmatrixmodels/nonsequentialmodel.py:NonSequentialModel.__init__", "parametricmatrixmodels/graph_util.py:place_connections_in_tree", "parametricmatrixmodels/graph_util.py:partition_connections_by_tree", "parametricmatrixmodels/model.py:Model.append_module"]}
{"id": "C134", "title": "Calibration warns about a feature exactly if it looks different from what was said", "statement": "Unless skip_sanity_checks is set, ConformalizedModel.calibrate compares every leaf of the training data (calibration data if there are none) with its entry in continuous_features, and warns exactly if for some leaf 'more than 10 different samples, and more than 5 percent of the samples' and the entry disagree, whatever the order of the samples. In particular data in which no sample occurs twice, said to be continuous, give no warning. True for at most MAX_N = 100000 samples with at most MAX_K = 100 entries along their first axis, and the consequence for any number of samples above ten. False otherwise: with at most ten samples every feature said to be continuous causes the warning; samples that differ only behind the first 100 entries count as equal; and a leaf with one number per sample (array with one axis) makes calibrate fail with an IndexError, although the model accepts such data and calibrate accepts them with skip_sanity_checks.", "quantifier": "all data, flags, numbers and orders of samples, all values of MAX_N and MAX_K", "why_tests_cant": "The check only warns; tests use two-dimensional arrays with hundreds of samples.", "anchors": ["parametricmatrixmodels/conformal/conformalizedmodel.py:ConformalizedModel.calibrate", "parametricmatrixmodels/conformal/conformalizedmodel.py:361-417"]}
{"id": "C135", "title": "The outputs of a compiled model have an axis besides the samples", "statement": "After compile succeeded for the shape of the data, every array that a call of the model returns has at least one axis besides the one of the samples; and compile rejects models only for that reason if their modules accept the shapes they get.", "quantifier": "all sequential and graph models, all modules that announce their shapes truthfully, all data", "why_tests_cant": "the check is a length of a structure that can be a tuple of sizes or a container; only containers with arrays without axes show the difference", "anchors": ["parametricmatrixmodels/sequentialmodel.py:SequentialModel.compile", "parametricmatrixmodels/sequentialmodel.py:SequentialModel.get_output_shape", "parametricmatrixmodels/nonsequentialmodel.py:NonSequentialModel.compile"]}
{"id": "C136", "title": "Rewiring one graph model leaves the others as they are", "statement": "An entry written into the connections of one NonSequentialModel (model.connections[k] = v) shows in that model and in no other. True in every program that makes no copies and hands each of its own dictionaries to one model once; and building, copying, loading and assigning to the attribute never change the connections of another model. False otherwise: copy(), documented as a deep copy, hands on the same dictionary object, so that rewiring the copy rewires the original (and the other way round) until one of the attributes is assigned anew; the constructor keeps the dictionary it is given, so that two models built from one dictionary share it. Models read from a file have their own.", "quantifier": "all programs of any length that build, copy, save and load graph models and change their connections", "why_tests_cant": "Tests copy a model and compare what the two return; only an edit of one of them and a look at the other would show it, and only when it is an edit in place.", "anchors": ["parametricmatrixmodels/nonsequentialmodel.py:NonSequentialModel.__init__", "parametricmatrixmodels/nonsequentialmodel.py:NonSequentialModel.get_hyperparameters", "parametricmatrixmodels/nonsequentialmodel.py:NonSequentialModel.set_hyperparameters", "parametricmatrixmodels/modules/basemodule.py:BaseModule.copy"]}
{"id": "C137", "title": "The state of a model is put back where it was taken", "statement": "set_state(get_state()) changes no module; and calls with update_state=True return what the callable returns when the states are handed from call to call by hand, and leave the last states in the modules. A call without update_state changes no module. True for sequential models in which no module object is used in two places (the first part for all sequential models), and for graph models of which every module is ready. False otherwise: a module of a graph model that is not connected and not ready is given None by set_state, after every call with update_state, after training and on loading, so that it loses its state or raises (then the call raises a ValueError after computing its result); a module object used in two places has one state, into which both states are written, the last one staying.", "quantifier": "all models, modules with any kind of state, all sequences of calls", "why_tests_cant": "No module of the package has a state; tests of update_state need modules of their own.", "anchors": ["parametricmatrixmodels/model.py:Model.get_state", "parametricmatrixmodels/model.py:Model.set_state", "parametricmatrixmodels/nonsequentialmodel.py:NonSequentialModel.get_state", "parametricmatrixmodels/model.py:Model.__call__"]}
{"id": "C138", "title": "A sample without uncertainty does not spoil the intervals of the others", "statement": "If calibration samples have an uncertainty of zero (all their sensitivities vanish), the intervals for samples of positive uncertainty keep the documented coverage: at least the fraction 1 - alpha of any samples lie within the interval given after calibration with the others, or have no uncertainty themselves. True for alpha >= 2/(n+1) if no calibration sample without uncertainty is predicted exactly; with positive uncertainties throughout it is the guarantee of C42. False otherwise: one calibration sample with uncertainty zero and residual zero has the score 0/0, and then the quantile is NaN and no interval for any sample and any alpha contains anything; and for 1/(n+1) <= alpha < 2/(n+1) one infinite score is enough, because the quantile is computed as inf * 1 + inf * 0. Nothing is raised or warned about.", "quantifier": "all numbers of samples, residuals, uncertainties (zero or positive) and alphas", "why_tests_cant": "Exactly zero sensitivities do not occur with random test data; NaN intervals are arrays of the right shape.", "anchors": ["parametricmatrixmodels/conformal/conformalizedmodel.py:ConformalizedModel.calibrate", "parametricmatrixmodels/conformal/conformalizedmodel.py:ConformalizedModel.get_qhat", "parametricmatrixmodels/conformal/conformalizedmodel.py:ConformalizedModel.__call__"]}
{"id": "C139", "title": "Training in two parts", "statement": "train for e1 epochs followed by train(resume=True) for e2 epochs leaves a model with the parameters, states and moments that one training for e1 + e2 epochs leaves, provided that nothing in it is left to chance. It holds if the optimiser does not read its epoch counter, the losses do not use the number of the epoch and the last epoch of the first part is its best one; each of the three is needed. If resuming for e epochs changed nothing once, it changes nothing however often it is repeated, with whatever batch keys.", "quantifier": "all numbers of epochs, models, flags, data and settings; losses that depend neither on the order of the samples nor on keys, with all samples in one batch", "why_tests_cant": "one long run has to be compared with all ways to interrupt it; a small deviation of the optimiser counter does not fail a test that only looks whether the loss goes down", "anchors": ["parametricmatrixmodels/model.py:Model.train", "parametricmatrixmodels/training.py:train", "parametricmatrixmodels/training.py:_train", "parametricmatrixmodels/training.py:adam", "parametricmatrixmodels/training.py:complex_adam"]}
{"id": "C140", "title": "A failed load does not leave a wrong model in use", "statement": "If load or deserialize raises an exception, the model is as it was before. This is false: the model is reset first, and its modules are replaced before they are filled, so that after an exception it may have fresh modules among loaded ones, which train compiles and uses without complaint. What holds: such a model cannot be called until it is compiled again, unless only the model's own parameters or states were refused after all modules had come back; a file refused for its version or for an unknown class leaves modules, key and name alone; and a successful load gives everything in the file, whatever the model was it was loaded into.", "quantifier": "all models, saved data, versions and points at which loading can fail", "why_tests_cant": "a test of loading uses files that can be loaded, or looks only at the exception", "anchors": ["parametricmatrixmodels/model.py:Model.deserialize", "parametricmatrixmodels/model.py:Model.reset", "parametricmatrixmodels/model.py:Model.is_ready", "parametricmatrixmodels/model.py:Model.set_hyperparameters", "parametricmatrixmodels/modules/basemodule.py:BaseModule.deserialize"]}
{"id": "C141", "title": "Saved data can be loaded again", "statement": "Loading a model from a dictionary (deserialize) leaves the dictionary as it was. This is false: the entry \"trainable\" is taken out of the own entries of the model and of every model inside it, also when loading fails later on. What holds: nothing else is taken out, data of single modules are left alone, and what is loaded, or the exception, does not depend on what is taken out, so that the same data can be loaded any number of times with the same outcome.", "quantifier": "all saved data with models nested to any depth, all places at which loading may fail", "why_tests_cant": "a test loads its data once; the second load succeeds, and the change shows only when the data are looked at", "anchors": ["parametricmatrixmodels/model.py:Model.deserialize", "parametricmatrixmodels/modules/basemodule.py:BaseModule.deserialize"]}
