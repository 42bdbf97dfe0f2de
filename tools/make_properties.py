import json
P=[]
def p(title, statement, quantifier, why, anchors):
    P.append(dict(id="C%02d"%(len(P)+1), title=title, statement=statement, quantifier=quantifier, why_tests_cant=why, anchors=anchors))
T="parametricmatrixmodels/tree_util.py"; G="parametricmatrixmodels/graph_util.py"; N="parametricmatrixmodels/nonsequentialmodel.py"
S="parametricmatrixmodels/sequentialmodel.py"; M="parametricmatrixmodels/model.py"; MU="parametricmatrixmodels/model_util.py"
TR="parametricmatrixmodels/training.py"; CF="parametricmatrixmodels/conformal/conformalizedmodel.py"; BM="parametricmatrixmodels/modules/basemodule.py"
PP="parametricmatrixmodels/preprocessing/"; MO="parametricmatrixmodels/modules/"
# ---- tree paths
p("Path write then read","Whenever writing a value into a PyTree at a dotted path succeeds, reading the tree at that same path afterwards returns exactly the written value.","every PyTree (nested dicts/lists/tuples/None/leaves), every path string, every value","trees and paths are unbounded recursive inputs; tests only try a few shapes",[T+":setitem_by_strpath",T+":getitem_by_strpath"])
p("Path write is local","Writing at a dotted path changes nothing that is read through any path that leaves the written one at some component: reads of such paths give the same value, or the same kind of failure, as before.","every PyTree, every written path, every other path not related to it by prefix","frame conditions quantify over all other locations",[T+":setitem_by_strpath",T+":getitem_by_strpath"])
p("Partial path lookup splits the path","A lookup with early return and remainder reporting returns the node reached and the unread rest: consuming the path up to the remainder reaches exactly that node, and the remainder is empty unless the node is a leaf. Without early return the lookup fails with TypeError exactly where the early-return lookup leaves a non-empty remainder.","every PyTree and every path string","must hold for all depths and all leaf positions",[T+":getitem_by_strpath"])
p("Extending a structure from paths","When extending a (possibly empty) structure with paths and fill values succeeds, every requested path then reads its fill value and every leaf that was already present still reads its old value; when two paths ask for different values in the same slot, or a slot already holds something different, the call fails rather than overwriting.","every base tree, every list of paths, every list of fill values","interaction of many paths in one call, all orders",[T+":extend_structure_from_strpaths"])
p("Conversion to mutable containers","Converting a module tree to mutable form removes every tuple, keeps every leaf, keeps what each path reads, and is idempotent.","every PyTree of any depth","unbounded nesting",[T+":make_mutable"])
# ---- graph
p("Ambiguous input slots are made distinct","When several connections target paths in the same module, the concretised slot paths are pairwise different and none is an extension of another, each one extends (or equals) the path the user wrote, and paths that were already unambiguous are returned unchanged; the procedure never runs out of free indices.","every list of target paths with non-empty components","combinatorial in number and overlap of paths",[G+":concretize_paths"])
p("Every input slot has exactly one source","For any connection dictionary that is accepted, after placement each input slot of each module (and of the output) is fed by exactly one source; the internal 'multiple sources' failure cannot occur.","every module tree and connection dictionary","needs all possible overlaps of user connections",[G+":concretize_connections",G+":place_connections_in_tree"])
p("No connection is lost or invented","Concretising a connection dictionary keeps, for each source, the multiset of modules it is connected to, and the order in which the user listed its targets.","every connection dictionary","order/multiplicity for arbitrarily many targets",[G+":concretize_connections",G+":partition_connections_by_tree"])
p("Execution order is topological","Whenever an execution order is produced it starts at the input, ends at the output, contains each module that lies on some input-to-output path exactly once and nothing else, and places every module after all modules it takes data from.","every finite directed connection graph with no edge into the input","graphs are unbounded; tests cover a handful",[G+":resolve_connections",G+":validate_resolution"])
p("Every acyclic network is accepted","If the connection graph is acyclic and the output is reachable from the input then an execution order is produced; if the part between input and output has a cycle the call fails.","every finite directed connection graph","requires quantifying over all graphs",[G+":resolve_connections"])
p("Module names do not matter","Renaming a module consistently in the module tree and in the connections (avoiding only the reserved names 'input' and 'output' themselves) does not change acceptance, execution order or model output.","every connection dictionary and every injective renaming","all names",[G+":get_outer_connections_by_tree",G+":partition_connections_by_tree",G+":place_connections_in_tree",N+":NonSequentialModel.__init__"])
# ---- nonsequential
p("Graph model computes the dataflow semantics","The output of a compiled graph model equals the denotational value of the graph: each module applied exactly once to the outputs of its sources, assembled as the connections say.","every accepted acyclic graph, all module functions, all inputs, parameters, states","all graphs and all module functions",[N+":NonSequentialModel._get_callable",N+":NonSequentialModel._get_module_input_dependencies"])
p("Unconnected modules have no influence","Modules not on any input-to-output path are never executed: changing their function, parameters or state changes neither output nor any other module's state, and their own state is returned unchanged.","every graph and every such module","all graphs",[N+":NonSequentialModel._get_callable",G+":resolve_connections"])
p("Module state is updated exactly once and in place","After a forward pass of a graph model, the state of every executed module is the state that module returned, every other module's state is unchanged, and the state structure is preserved.","every graph, state tree and input","frame property over all modules",[N+":NonSequentialModel._get_callable"])
p("A forward pass does not modify its arguments","Evaluating a model's pure callable leaves the params and state objects passed by the caller unmodified.","every model, input and state","aliasing only observable for some state structures and later uses",[N+":NonSequentialModel._get_callable",S+":SequentialModel._get_callable",TR+":_train"])
p("Announced shapes are the real shapes","If every module's announced output shape agrees with its evaluation, then the shapes announced by the compiled model for every intermediate and for the output equal the shapes of the arrays produced by evaluation.","every graph/sequence of modules and every input","all compositions",[N+":NonSequentialModel._get_shape_progression",S+":SequentialModel.get_output_shape",S+":SequentialModel.compile"])
p("Sequential model is left-to-right composition","A sequential model applies its modules one after another in flattening order, each exactly once, threading data, and returns each module's own new state in the same structure; nesting sequences in any way does not change the result.","every nested module container and every input","unbounded nesting",[S+":SequentialModel._get_callable"])
p("Dictionary order of modules is application order","When modules are given as a dictionary, they are applied in the order in which the user inserted them (as the documentation states).","every dictionary of modules","all key names/orders",[S+":SequentialModel"])
p("Chain graph equals sequential model","A graph model whose connections form the chain input -> m1 -> ... -> mn -> output gives the same output and the same module states as the sequential model [m1,...,mn] (for modules that do not use randomness).","every n, modules, inputs","all lengths",[N+":NonSequentialModel._get_callable",S+":SequentialModel._get_callable"])
p("Randomness is independent across modules","Within one forward pass every module receives its own random key.","every model with at least two modules","depends on key derivation for all sizes",[S+":SequentialModel._get_callable",N+":NonSequentialModel._get_callable"])
# ---- batching
p("Automatic batching is transparent","For a model that acts sample by sample, evaluating with any maximum batch size (with or without recompilation avoidance) gives exactly the result of evaluating all samples at once, in the same order.","every number of samples, every max batch size >= 1, every samplewise function","all divisibility cases",[MU+":autobatch"])
p("Automatic batching threads state","With a state-carrying function, batched evaluation equals running the function on consecutive slices that cover all samples exactly once in order, passing the state of each slice to the next and returning the last one.","every function, number of samples and max batch size","all sizes",[MU+":autobatch"])
p("Splitting into batches is lossless","Splitting data into batches of a given size and concatenating the pieces gives back the data; all full batches have the requested size, the remainder is shorter, and all leaves are split at the same positions.","every data length and batch size","all sizes",[T+":pytree_split",T+":batch_leaves",T+":concatenate"])
p("Shuffling keeps samples aligned","Randomly permuting the data permutes all leaves (inputs, targets, uncertainties) with the same permutation, so every (x, y) pair that was present is still present exactly as often and no new pair appears.","every dataset, every random key","all permutations",[T+":random_permute_leaves",TR+":_train"])
# ---- training
p("Each epoch uses each sample once","In every training epoch the gradient steps together process every training sample exactly once.","every number of samples, batch size and permutation","all sizes and shuffles",[TR+":_train"])
p("Returned parameters are the best seen","Training returns the parameters (and model state) of the epoch with the lowest validation loss, the reported best loss is the minimum over the initial model and all completed epochs (ignoring NaN), and it is never worse than the initial loss.","every sequence of losses and updates, every stopping cause","all histories of losses",[TR+":_train",TR+":train"])
p("Training stops when it should","Training runs at most the requested number of epochs, stops at the first epoch boundary after an interrupt, stops once the best loss is at or below the target, and stops exactly after `patience` consecutive epochs without sufficient improvement.","every history of losses/interrupts","all histories",[TR+":_train",TR+":GracefulKiller"])
p("Frozen parameters do not change","Parameters of modules marked not trainable are returned by training bit-for-bit unchanged, and each trainable parameter is updated using its own gradient, for any mix of frozen and trainable modules.","every parameter structure and trainability mask, any number of steps","all masks and step counts",[TR+":_train",TR+":train",M+":Model.train"])
p("Validation loss does not depend on batch size","For a loss that is a mean over samples, the reported validation loss equals the mean over all validation samples irrespective of the validation batch size.","every number of samples and batch size","all divisibility cases",[TR+":_train"])
p("Optimizer epoch counter","Each completed epoch advances the optimizer's step counter by exactly one, for real and complex optimizers alike, and a returned optimizer state resumes the schedule where the returned parameters left it.","every number of epochs and batches","all histories",[TR+":adam",TR+":complex_adam",TR+":_train"])
p("Training arguments are validated","Inconsistent training arguments (missing targets for supervised losses, mismatching sample counts, bad callables) are rejected with ValueError before any step is taken, and every accepted combination trains with the data the user passed.","every combination of optional arguments","cartesian product of options",[TR+":train",M+":Model.train"])
p("Loss functions","Each named loss is zero on a perfect prediction and non-negative (unless unsupervised), weighs residuals by the given uncertainties, and unknown names are rejected.","all arrays and all names","all values",[TR+":make_loss_fn"])
# ---- model editing
p("Module editing is sequence editing","insert/append/prepend/pop/replace on a model's modules act like the corresponding operation on the sequence of modules, affect no other module, and always leave the model in the not-compiled state.","every container kind, index/key and history of edits","all histories",[M+":Model.insert_module",M+":Model.append_module",M+":Model.prepend_module",M+":Model.pop_module_by_index",M+":Model.pop_module_by_key",M+":Model.__setitem__"])
p("Combining models leaves the operands intact","`a + b` builds a new model applying a's modules then b's, and neither a nor b is changed.","every pair of models","aliasing",[M+":Model.__add__"])
p("Evaluation always uses the current modules","After any sequence of edits, parameter/state/hyper-parameter changes and recompilations, calling the model evaluates the modules it currently holds (no stale cached function).","every history of API calls","all interleavings",[M+":Model.__call__",M+":Model.reset",M+":Model.set_hyperparameters",N+":NonSequentialModel.compile",S+":SequentialModel.compile",M+":Model.grad_input"])
p("Save/load round trip of models","Serialising and deserialising a model gives a model with the same modules, parameters, state, trainability and outputs.","every nested model","all nestings",[M+":Model.serialize",M+":Model.deserialize",BM+":BaseModule.serialize",BM+":BaseModule.deserialize"])
p("Save/load round trip of every module kind","For each built-in module kind, copying (serialise + deserialise into a fresh instance) gives a module with the same behaviour.","every built-in module and every hyper-parameter setting","all hyper-parameter settings",[BM+":BaseModule.copy",MO+"lowrankaffinehermitianmatrix.py",MO+"concatenateleaves.py",MO+"matmul.py",MO+"einsum.py",MO+"affinehermitianmatrix.py"])
p("Precision setting","Setting the precision succeeds exactly for the documented spellings (64 bit only if enabled), converts every real array to the real type and every complex array to the complex type of that width, is idempotent and never changes kind (real/complex/integer).","every spelling and parameter structure","all trees of dtypes",[BM+":BaseModule.set_precision",M+":Model.set_precision",T+":safecast",T+":astype"])
# ---- preprocessing
p("Scaler round trips","For each fitted scaler (standard, min-max, robust, mixed), inverse-transforming transformed data returns the data whenever the fitted scales are non-zero; transforming is strictly monotone/affine in each feature.","all data and fitted parameters","all real data",[PP+"standard_scaler.py",PP+"minmax_scaler.py",PP+"robust_scaler.py",PP+"mixed_scaler.py"])
p("Scalers normalise","Standard scaling gives zero mean and unit variance on the fitting data with non-constant features; min-max scaling maps the fitting data into the requested range and attains both ends.","all data sets","all real data",[PP+"standard_scaler.py",PP+"minmax_scaler.py",PP+"robust_scaler.py",PP+"mixed_scaler.py"])
p("One-hot encoding","After fitting, each row seen in fitting is encoded with exactly one 1, distinct rows get distinct codes, decoding an encoded row returns it, and unseen rows encode to all zeros.","all data sets with any number of columns","all data",[PP+"onehot.py"])
# ---- conformal
p("Conformal coverage guarantee","For exchangeable scores, the interval built with the calibrated quantile at level alpha covers the true value with probability at least 1-alpha: among any n+1 scores, at least (n+1)(1-alpha) are no larger than the quantile computed from the other n.","every n, every alpha in (0,1), every multiset of scores","finite-sample guarantee for all data",[CF+":ConformalizedModel.get_qhat"])
p("Conformal intervals","The reported interval contains a value iff its normalised residual does not exceed the quantile; smaller alpha gives a wider (superset) interval; alpha outside (0,1) or an uncalibrated model is rejected.","all predictions, scales and levels","all reals",[CF+":ConformalizedModel.__call__",CF+":ConformalizedModel.get_qhat"])
p("Recalibration takes effect","After recalibrating, quantiles and intervals are those of the latest calibration data, independent of earlier queries.","every history of calibrations and queries","all histories",[CF+":ConformalizedModel.calibrate",CF+":ConformalizedModel.get_qhat"])
p("Robust normalisation scales are usable","The robust spread used for normalisation is, for every feature, either at least the threshold or the whole vector is the explicit 'no normalisation' value; it is never zero or negative.","all data sets","all data",[CF+":ConformalizedModel.robust_normalization"])
p("Weighted quantile","The weighted quantile with equal weights is an ordinary quantile of the data: it does not depend on the order of the samples and lies between data minimum and maximum.","all data and weights","all data",[CF+":ConformalizedModel.weighted_quantile"])
# ---- matrices
p("Parametric matrix is Hermitian","For arbitrary (also non-Hermitian) complex parameters and real features, the matrix produced by the affine Hermitian module is Hermitian, hence its eigenvalues are real.","all sizes, parameters, features and smoothing values","all matrices",[MO+"affinehermitianmatrix.py",MO+"_smoothing.py",MO+"lowrankaffinehermitianmatrix.py"])
p("Smoothing term is the sum of pairwise commutators","The linear-time cumulative-sum smoothing computation equals i times the sum over all pairs of commutators, and is Hermitian for Hermitian inputs.","any number of matrices of any size","all counts/sizes",[MO+"_smoothing.py"])
p("Eigenvalue selection","For each selection rule and each count 1 <= k <= n exactly k eigenpairs are returned, in ascending order of the sort key, they are the documented extremal/interior ones, and each eigenvector stays paired with its eigenvalue.","all n, k, rules and spectra","all sizes",[MO.replace("modules/","")+"eigen_util.py"])
p("Eigenvalue module shapes","The announced output shape of the eigenvalue modules equals the shape of the evaluated output for every PyTree of square-matrix inputs and every count setting.","all trees and counts","all trees",[MO+"eigenvalues.py",MO+"eigenvectors.py",MO+"eigensystem.py"])
# ---- einsum & shape modules
p("Einsum batch index is fresh","The index letter added for the batch dimension does not occur elsewhere in the user's subscripts, is added to every data operand and the output and to no parameter operand; an omitted output lists exactly the indices occurring once, alphabetically.","all subscript strings","all strings",[MO+"einsum.py"])
p("MatMul is the matrix product of the operands in path order","The matrix-product module with n operands computes the ordinary left-to-right matrix product.","any number and sizes of operands","all counts",[MO+"matmul.py"])
p("Reshape and flatten agree with their announced shapes","For every PyTree input and every target (including -1 and None entries) the announced shapes equal those of the evaluated output, element order is row-major and unchanged, and impossible targets are rejected.","all shapes","all shapes",[MO+"reshape.py",MO+"flatten.py",MO+"treeflatten.py",MO+"treekey.py"])
p("Concatenating leaves","Concatenation along an axis of the data (never the batch axis) keeps every element, in path order, for positive and negative axes alike, and the announced shape is the real one.","all trees and axes","all shapes",[MO+"concatenateleaves.py"])
p("Composite PMM modules honour their constructor arguments","Matrices, vectors and biases supplied by the user at construction are the ones used by the compiled module.","all constructor arguments","all option combinations",[MO+"affineobservablepmm.py",MO+"affineeigenvaluepmm.py"])
# ---- added while modelling
p("Tuples keep their type when a structure is extended","Extending a structure by new paths returns tuples where the given structure had tuples (as documented), at every nesting depth.","every structure and list of paths","all nestings",[T+":extend_structure_from_strpaths"])
p("Order of paths does not matter when extending a structure","Extending a structure with the same (path, value) pairs listed in another order gives a structure with the same content, or fails in both cases.","every list of paths and every permutation of it","all permutations",[T+":extend_structure_from_strpaths"])
p("Predictions of the wrong shape are rejected",
  "A loss function applied to predictions and targets of different structure or different array shapes raises an error instead of returning a number.",
  "all trees of arrays and every named loss",
  "the shapes that broadcast silently are rarely in a test suite",
  ["parametricmatrixmodels/training.py:make_loss_fn", "parametricmatrixmodels/tree_util.py:sub"])

p("A failed compilation does not leave a usable model",
  "If compile raises, the model is either unchanged or not ready; it cannot be evaluated with some modules compiled for the new input shape and others for the old one.",
  "every model and input shape",
  "failures half way through are rarely tested",
  ["parametricmatrixmodels/sequentialmodel.py:SequentialModel.compile", "parametricmatrixmodels/nonsequentialmodel.py:NonSequentialModel.compile"])
p("The requested differentiation mode is used",
  "grad_input and grad_params with fwd=True or fwd=False differentiate in the requested mode, whatever calls were made before.",
  "every history of gradient calls",
  "both modes give the same numbers",
  ["parametricmatrixmodels/model.py:Model.grad_input", "parametricmatrixmodels/model.py:Model.grad_params"])

p("Observable outputs do not depend on the choice of eigenvectors",
  "The outputs of ExpectationValueSum and TransitionAmplitudeSum are the documented sums for the Hermitian parts of the parameters, and stay the same when the state vectors are replaced by another orthonormal basis of the same space (other phases, order, or basis of a degenerate eigenspace).",
  "all sizes, parameters, state vectors and unitary changes of basis",
  "the eigensolver's phases are fixed on one machine; the set of bases is continuous",
  [MO+"expectationvaluesum.py:ExpectationValueSum._get_callable", MO+"transitionamplitudesum.py:TransitionAmplitudeSum._get_callable"])
p("The spectrum depends on the parameters only up to a common change of basis",
  "Replacing all parameter matrices M by U^H M U with one unitary U turns the produced matrix A into U^H A U (smoothing included), so the eigenvalues stay the same.",
  "all sizes, parameters, features, smoothing values and unitary matrices",
  "continuous family",
  [MO+"affinehermitianmatrix.py", MO+"_smoothing.py"])
p("Affine modules are affine in the features",
  "At the features (1-t) x + t y the affine Hermitian matrix and the affine tensor modules return (1-t) f(x) + t f(y); a wrong number of features is rejected.",
  "all shapes, parameters, features and t",
  "infinitely many points",
  [MO+"affinehermitianmatrix.py", MO+"affinetensor.py"])

p("Einsum treats every sample by itself",
  "Applied to a batch, an Einsum module returns for sample number beta exactly what the einsum written by the user (without a batch index) returns for the parameters and the beta-th sample of every array; the batch sizes of all arrays agree and equal that of the output.",
  "all notations, array shapes, batch sizes and contents, over any numbers",
  "all shapes and all index patterns; a wrong letter can agree on symmetric examples",
  ["parametricmatrixmodels/modules/einsum.py"])
p("Einsum announces the shape it produces",
  "get_output_shape of an Einsum module is the shape of the module's output without the batch dimension, for no or one parameter array.",
  "all notations, dimension maps, shapes of parameters and data",
  "all index patterns",
  ["parametricmatrixmodels/modules/einsum.py"])

p("Well-formed networks compile","The wiring of a graph model whose connections lead from existing nodes to existing modules is accepted by compile exactly when the output depends on the input, no module between input and output depends on itself, and everything feeding such a module depends on the input; once compiled, it returns an output whenever every module returns one.","every module tree and connection dictionary","all graphs, names and nestings",[N+":NonSequentialModel.get_execution_order",N+":NonSequentialModel._get_callable",N+":NonSequentialModel._get_module_input_dependencies",G+":place_connections_in_tree"])

p("Edits of composite modules survive compilation",
  "A module appended to (or added with + to) an AffineObservablePMM or AffineEigenvaluePMM is applied after the next compile, and the parameters already there are kept; compiling again for the same input shape changes nothing.",
  "all constructor arguments, modules, shapes and histories of compile calls",
  "all histories",
  [MO+"affineobservablepmm.py:AffineObservablePMM.compile", MO+"affineeigenvaluepmm.py:AffineEigenvaluePMM.compile", "parametricmatrixmodels/model.py:Model.__add__", "parametricmatrixmodels/model.py:Model.append_module"])
p("Composite modules announce the shape they produce",
  "get_output_shape of a composite PMM module is the output shape found by compiling it.",
  "all constructor arguments, trees of input shapes and histories of compile calls",
  "all option combinations",
  [MO+"affineobservablepmm.py:AffineObservablePMM.get_output_shape", MO+"affineeigenvaluepmm.py:AffineEigenvaluePMM.get_output_shape"])

p("Activation modules act sample by sample and keep the announced shape",
  "Every activation module (a subclass of ActivationBase) returns, for data of the input shapes, arrays of the announced shapes (the input shapes), and what it returns for one sample depends on that sample only.",
  "all activation classes, trees of shapes, batch sizes and contents",
  "all shapes; the classes are generated and none is tested with shapes of every rank",
  [MO+"activationbase.py:ActivationBase", MO+"_autogenerated_activationfuncs.py"])
p("A Bias module adds its parameters and keeps the shape",
  "After compiling a Bias module for an input shape, every parameter tree it accepts is added to every sample (one array, or one number, to all leaves; a tree leaf by leaf), and the output has the announced shape.",
  "all constructor arguments, trees of shapes, parameters, batch sizes and contents",
  "all trees and shapes; broadcasting hides a wrong shape",
  [MO+"bias.py:Bias.__init__", MO+"bias.py:Bias.compile", MO+"bias.py:Bias._get_callable", MO+"bias.py:Bias.set_params"])
p("A Constant module returns its constant for every sample",
  "A compiled Constant module returns its constant (the given one, or the trained one) once for every sample, whatever the data, and the announced shape is that of the constant.",
  "all constructor arguments, trees of shapes, batch sizes and contents",
  "all trees and shapes",
  [MO+"constant.py:Constant.__init__", MO+"constant.py:Constant.compile", MO+"constant.py:Constant._get_callable", MO+"constant.py:Constant.set_params"])
p("A compiled PReLU multiplies negative entries with its slopes",
  "After any sequence of compile and set_params calls (failing ones included), a PReLU module that has been compiled for an input shape accepts data of this shape, returns data of this shape, keeps the entries >= 0 and multiplies the others with the one slope, or with the slope at their position in the parameter of their leaf.",
  "all histories, trees of shapes, parameters, batch sizes and contents",
  "all histories of calls, all trees",
  [MO+"prelu.py:PReLU.compile", MO+"prelu.py:PReLU._get_callable", MO+"prelu.py:PReLU.set_params"])
p("Parameters set before compiling are kept by compile",
  "If set_params succeeded on a Bias, Constant or PReLU module and compile succeeds afterwards, the module has the parameters that were set.",
  "all modules, parameters and shapes",
  "all orders of calls",
  [MO+"bias.py:Bias.compile", MO+"constant.py:Constant.compile", MO+"prelu.py:PReLU.compile"])

p("Bias corrections centre the calibration residuals",
  "With bias corrections switched on, calibration succeeds and the residuals (targets minus corrected predictions) of the calibration data have median zero, per output number and per stratum; later samples are shifted by exactly the amount their stratum was shifted by, samples of strata not seen in calibration are not shifted, shapes are kept, and continuous features are refused as strata.",
  "all data, structures of inputs and outputs, numbers of samples, choices of strata",
  "all residuals and all partitions into strata",
  [CF+":ConformalizedModel.calibrate", CF+":ConformalizedModel.__call__"])

p("Uncertainties are first-order error estimates",
  "The uncertainty heuristic of a conformal model gives, for every output number of every sample, the mean squared first-order change under the selected parameters (over its normalisation), plus the same for the selected continuous inputs scaled by the interquartile ranges of the training data, plus the distance of the sample; each part is non-negative and the result has the structure and shapes of the outputs. Normalisations found by calibration are positive or infinite.",
  "all models, gradients, structures and shapes of inputs, outputs and parameters",
  "all gradients, shapes and structures",
  [CF+":ConformalizedModel.uncertainty_heuristic", CF+":ConformalizedModel.parameter_sensitivity", CF+":ConformalizedModel.input_sensitivity"])

p("Uncertainties of the inputs belong to their samples",
  "When uncertainties of the inputs are given, the uncertainty of a sample depends on the input uncertainty of that sample only, and the result keeps the shapes of the outputs.",
  "all input uncertainties and numbers of samples",
  "all pairs of samples",
  [CF+":ConformalizedModel.input_sensitivity"])

p("Input sensitivity without continuous inputs",
  "A conformal model with input sensitivity switched on whose selected inputs are all categorical gives an uncertainty (the term counts nothing).",
  "all selections of inputs",
  "all selections and structures",
  [CF+":ConformalizedModel.input_sensitivity"])

p("Shape comparisons",
  "shapes_equal is True exactly when the structures are the same and corresponding leaves agree along the given axes, has_uniform_leaf_shapes exactly when all leaves agree with each other, uniform_leaf_shapes_equal exactly when all leaves of both trees agree; they give an answer whenever the axes exist.",
  "all trees and all kinds of axes (none, integer, tuple, slice; negative too)",
  "all structures and shapes",
  [T+":shapes_equal", T+":has_uniform_leaf_shapes", T+":uniform_leaf_shapes_equal"])

p("Distances are Gower distances",
  "The distance sensitivity of a sample is the mean Gower distance (range-scaled differences of selected continuous numbers, 0 or 1 for selected categories, divided by the number of features) to the distinct training samples within the cutoff, but at least the distance to the nearest one; the cutoff is the requested quantile of the distances of distinct training samples to their nearest other one.",
  "all structures of data, all selections, all training data with non-constant selected continuous features",
  "all data sets and samples",
  [CF+":ConformalizedModel.distance_sensitivity", CF+":ConformalizedModel._prepare_data_for_kdtree", CF+":ConformalizedModel.calibrate"])

p("Bounds of distances",
  "Distances are non-negative, not less than the distance to the nearest training sample, at most 1 for samples within the ranges of the training data, and 0 for samples that are training samples.",
  "all samples and training data",
  "all samples and training data",
  [CF+":ConformalizedModel.distance_sensitivity"])

p("Distances exist for all data",
  "Calibration and distance sensitivity accept constant features, categories that do not occur in the training data (a difference counts 1) and categorical features of several numbers.",
  "all training data and samples",
  "all training data and samples",
  [CF+":ConformalizedModel.calibrate", CF+":ConformalizedModel._prepare_data_for_kdtree"])


p("Adam as published",
  "The optimizers move a parameter as Kingma and Ba's Adam does: after n updates it has moved by the sum of lr * (decaying average of the gradients) / (sqrt(decaying average of their squares) + eps), the averages being true averages with weights summing to one, however training is divided into batches and epochs.",
  "all gradients, learning rates and schedules, numbers of batches and epochs",
  "the claim is about all histories of gradients; a short run with one batch looks right",
  [TR+":adam", TR+":complex_adam", TR+":make_schedule", TR+":_train"])

p("Optimizer steps are bounded",
  "No update moves a parameter by more than lr * sqrt(b2 / ((1 - b2) (b2 - b1^2))), whatever the gradients, the history and the epoch counter, and the first update by no more than lr; for complex parameters the same holds of the modulus.",
  "all gradients and all states reachable with the optimizer's functions (updates, direct changes of parameters, epoch increments), 0 <= b1 < 1, b1^2 < b2 < 1",
  "all histories; the bound is about the worst one",
  [TR+":adam", TR+":complex_adam"])

p("Gradient clipping",
  "Clipping replaces gradient entries beyond +-clip by the nearer bound and leaves others alone; the optimizers depend on the gradients only through the clipped ones, and behave as without clipping while all entries are within the bounds. Clipping keeps the direction of a complex gradient.",
  "all gradients, states and bounds",
  "all gradients",
  [TR+":adam", TR+":complex_adam"])

p("Complex parameters",
  "For real gradients the complex optimizer moves complex parameters as it moves real ones; multiplying the parameters by a phase (and the gradients by its conjugate) multiplies the result by that phase; the first step goes along minus the conjugate of the gradient.",
  "all histories of gradients, all phases",
  "all histories",
  [TR+":complex_adam"])


p("Gradients belong to their samples",
  "Row i of the gradient with respect to the inputs is the derivative of the model of sample i alone, and row i of the gradient with respect to the parameters the derivative of row i of the output; neither depends on max_batch_size or avoid_recompilation.",
  "all models that treat samples one by one, all data, all batch sizes",
  "all models and batch sizes; a test sees one",
  [M+":Model.grad_input", M+":Model.grad_params", MU+":autobatch"])

p("Gradients return the state of the forward pass",
  "The state that grad_input and grad_params return (and store with update_state=True) is the state that evaluating the model on the same data would give.",
  "all models, data, states and batch sizes",
  "models without state do not show it",
  [M+":Model.grad_input", M+":Model.grad_params"])

p("LinearNN is an affine map and an activation",
  "A LinearNN compiled for data of a single array (in any tree; samples with at least one axis) computes act(W x + c) for every batch, x being the numbers of a sample in row-major order, W the (out_features, size of a sample) matrix and c the bias it reports as parameters: with the initial parameters, and with any that are set; compiling again for the same data keeps them; other numbers of arrays are refused.",
  "all shapes, trees around the array, batches, numbers of outputs, activations, with and without bias",
  "all shapes and batches; the subscripts of the product are generated at run time",
  [MO+"linearnn.py:LinearNN.compile", MO+"linearnn.py:LinearNN.deserialize", MO+"matmul.py:MatMul", MO+"flatten.py:Flatten", MO+"bias.py:Bias"])

p("LinearNN announces its output",
  "The shape that LinearNN.get_output_shape announces (out_features,) is the shape of its output for every activation, and after any change of out_features followed by compile.",
  "all activations, shapes and batches, all changes of out_features",
  "needs the combination of an activation that changes sizes, or a second compile, with LinearNN",
  [MO+"linearnn.py:LinearNN.get_output_shape", MO+"linearnn.py:LinearNN.compile"])

p("Serialised scalers come back",
  "Deserialising the dictionary that serialize() of a fitted scaler returns succeeds, for every kind of scaler and for mixed scalers nested to any depth, and the result transforms and inverts all data (also fails) exactly as the original does.",
  "all five scaler classes, all trees of attributes, any nesting of mixed scalers, all data, both directions",
  "all nestings of scalers and structures of data; a test fits a few",
  [PP+"scaler.py:Scaler.serialize", PP+"mixed_scaler.py:MixedScaler.serialize", PP+"mixed_scaler.py:MixedScaler.deserialize", PP+"standard_scaler.py:StandardScaler.deserialize", PP+"minmax_scaler.py:MinMaxScaler.deserialize", PP+"robust_scaler.py:RobustScaler.deserialize", PP+"onehot.py:OneHot.deserialize"])

p("Scalers saved to a file come back",
  "A fitted scaler that is saved with save() and loaded with from_file() transforms and inverts all data exactly as the original does.",
  "all scalers, all structures of the data they were fitted to",
  "depends on what numpy makes of each structure of python values; a test saves a scaler of one array",
  [PP+"scaler.py:Scaler.save", PP+"scaler.py:Scaler.load", PP+"mixed_scaler.py:MixedScaler.deserialize", PP+"minmax_scaler.py:MinMaxScaler.deserialize"])

p("Saved conformal models come back",
  "A conformal model that was calibrated any number of times, and used in between, can be serialised and deserialised, also through a file, and the result answers every sequence of calls, quantiles, uncertainties and sensitivities (and the name) exactly as the original does.",
  "all wrapped models, all histories of calibrations and calls, all sequences of later calls, all numerical components",
  "all histories and sequences of calls; a test compares one prediction of one model",
  [CF+":ConformalizedModel.serialize", CF+":ConformalizedModel.deserialize", CF+":ConformalizedModel.save", CF+":ConformalizedModel.from_file", CF+":ConformalizedModel.name"])

p("A rejected calibration changes nothing",
  "If calibrate raises an exception, the conformal model answers everything as it did before.",
  "all conformal models, all arguments of calibrate that are refused at any stage",
  "needs a failure at each of the stages, after a successful calibration",
  [CF+":ConformalizedModel.calibrate", CF+":ConformalizedModel.__call__"])

p("Calibration starts afresh",
  "After a successful calibration, the scores, uncertainties, distances and predictions with intervals are those of a new object calibrated with the same arguments, whatever calibrations came before; and whether a calibration succeeds does not depend on them.",
  "all histories of the object, all arguments of calibrate, all later calls",
  "all histories; left-over attributes show only for particular combinations of arguments",
  [CF+":ConformalizedModel.calibrate", CF+":ConformalizedModel.uncertainty_heuristic", CF+":ConformalizedModel.distance_sensitivity", CF+":ConformalizedModel.input_sensitivity", CF+":ConformalizedModel.__call__"])


p("Frozen modules keep their parameters in Model.train",
  "After Model.train, every module whose trainable flag is False, at whatever depth of nested models, has the parameters it had before.",
  "all models of modules and models, all settings of the flags, all parameters, all trainings that leave arrays flagged as not trainable unchanged",
  "the flag of a nested model is derived from its modules; a test freezes modules of a flat model",
  [M+":Model.train", M+":Model.get_trainable_modules", M+":Model.trainable", BM+":BaseModule.freeze", BM+":BaseModule.unfreeze"])

p("Parameters are set as given or not at all",
  "After a successful set_params, get_params returns what was given, and the trainable flags are as before; setting what get_params returns changes nothing; and if set_params raises an exception the model has its old parameters.",
  "all models of modules and models, all trees of parameters",
  "all nestings and all trees that do not fit at some depth",
  [M+":Model.set_params", M+":Model.get_params"])

p("The number of parameters does not depend on nesting",
  "get_num_trainable_floats of a model is the sum over its modules however they are nested, None exactly if some module has none yet, and, for modules that do not define their own count, the number of real numbers in get_params (two for a complex entry).",
  "all models of modules and models, all parameters",
  "all nestings; a test counts one model",
  [M+":Model.get_num_trainable_floats", BM+":BaseModule.get_num_trainable_floats"])


p("Compiled models accept exactly data of their shape",
  "Calling a compiled model succeeds in checking its input exactly if the input has the structure the model was compiled for, every array has a first axis for the samples followed by the compiled shape, and all arrays have the same number of samples; other input raises ValueError before anything is computed, and a model that is not ready raises RuntimeError.",
  "all compiled shapes and all input trees",
  "all structures of data; shapes are compared as trees of numbers, where different things can look alike",
  [M+":Model._verify_input", M+":Model.__call__", T+":all_equal", T+":get_shapes"])

p("Comparison of trees answers correctly",
  "all_equal returns True exactly for trees of the same structure with equal arrays and values, all_close exactly for trees of the same structure and shapes with close numbers; both always answer.",
  "all pairs of trees of arrays and values",
  "all structures, shapes and kinds of leaves",
  [T+":all_equal", T+":all_close"])


p("Compiled matrix modules run and give what they announce",
  "AffineHermitianMatrix, LowRankAffineHermitianMatrix, AffineTensor, ExpectationValueSum and TransitionAmplitudeSum, once compiled for a shape, accept batches of any size of that shape, also after any further accepted call of set_params, and return arrays of the shape get_output_shape announces.",
  "all sequences of construction, set_hyperparameters, set_params and compile; all shapes and batch sizes",
  "all orders of the calls and all sizes; wrong sizes are only noticed when the module is used",
  ["parametricmatrixmodels/modules/affinehermitianmatrix.py:AffineHermitianMatrix.compile", "parametricmatrixmodels/modules/lowrankaffinehermitianmatrix.py:LowRankAffineHermitianMatrix.set_params", "parametricmatrixmodels/modules/affinetensor.py:AffineTensor.compile", "parametricmatrixmodels/modules/expectationvaluesum.py:ExpectationValueSum.set_params", "parametricmatrixmodels/modules/transitionamplitudesum.py:TransitionAmplitudeSum.set_params"])

p("Stored matrices stay Hermitian and survive compilation",
  "The matrices of AffineHermitianMatrix and the observables of ExpectationValueSum and TransitionAmplitudeSum pass the Hermiticity test whatever methods were called; compiling a module that has parameters never changes it; and once compiled, the hyper-parameters can no longer be changed.",
  "all sequences of construction, set_hyperparameters, set_params and compile, all shapes",
  "all orders of the calls",
  ["parametricmatrixmodels/modules/affinehermitianmatrix.py:AffineHermitianMatrix.set_params", "parametricmatrixmodels/modules/expectationvaluesum.py:ExpectationValueSum.compile", "parametricmatrixmodels/modules/transitionamplitudesum.py:TransitionAmplitudeSum.compile", "parametricmatrixmodels/modules/affinehermitianmatrix.py:AffineHermitianMatrix.set_hyperparameters"])

p("Training starts from the current parameters",
  "train starts from the parameters get_params returns, whether resumed or not: without any epoch it leaves them as they are. A training that is not resumed does not depend on earlier trainings except through parameters, states and key; resuming a model that was never trained is refused and changes nothing.",
  "all sequences of train, set_params, changes of trainable flags, set_state and edits; all data, losses, optimisers and settings",
  "all orders of calls; the stored optimiser state is not visible from outside",
  [M+":Model.train", M+":Model.set_params", M+":Model.reset", "parametricmatrixmodels/training.py:train"])


p("Models share modules only by using the same objects",
  "Modules are objects, and a module can be in several models or several times in one. Methods of a model (set_params, train, compile, the trainable flag) leave every model that shares no module with it as it is; a model in which no module occurs twice behaves as if its modules were its own; parameters that were set or trained are the ones get_params returns.",
  "all models as nested trees of module objects, all modules, all sequences of method calls on any of the models, all parameters",
  "all ways of sharing, all nestings and all orders of calls",
  [M+":Model.set_params", M+":Model.get_params", M+":Model.train", M+":Model.compile", BM+":BaseModule.set_params"])

p("Copies of models are independent and behave like the original",
  "A copied model has the same structure with copies of the modules; whatever is done to the copy leaves the original and every other model as they are, and the other way round; and the same call has the same effect on the copy as on the original.",
  "all models as nested trees of module objects, all modules, all sequences of method calls afterwards",
  "all ways of sharing modules and all sequences of calls",
  [BM+":BaseModule.copy", M+":Model.serialize", M+":Model.deserialize", M+":Model.set_params"])

p("Conformal models do not influence each other",
  "What a ConformalizedModel answers depends only on its own calibrations and questions: calibrating or asking another one, also one that was restored from it, changes nothing, and a restored one starts as the original is.",
  "all sequences of construction, calibrate, get_qhat, serialize/deserialize and save/from_file on any number of models",
  "all interleavings of calls on several models; the shared dictionary is not visible from outside",
  ["parametricmatrixmodels/conformal/conformalizedmodel.py:ConformalizedModel.get_qhat", "parametricmatrixmodels/conformal/conformalizedmodel.py:ConformalizedModel.serialize", "parametricmatrixmodels/conformal/conformalizedmodel.py:ConformalizedModel.deserialize"])


p("Compiling a sequential model compiles every module for what it gets",
  "If compile succeeds, every module of the model, also in models inside it, is in the end what its compile makes of it for the shape that the modules before it produce, with the key split off for it; and if the modules can be compiled one after the other in this way, and no model in it produces data without axes, compile succeeds.",
  "all sequential models as nested trees of module objects, all modules, shapes and keys",
  "all nestings and all ways of sharing modules",
  ["parametricmatrixmodels/sequentialmodel.py:SequentialModel.compile", "parametricmatrixmodels/modules/flatten.py:Flatten.compile"])


p("The progress line shows the latest text and nothing else",
  "After update and end of the progress bar, the line on the terminal shows exactly the label, the information, the bar and the time of that call, without remnants of longer texts shown before; end with clearline leaves a blank line; nothing is written when there is nothing to do.",
  "all sequences of ProgressBar(...), start, update and end with any texts, numbers and times",
  "all lengths of texts and all orders of calls",
  ["parametricmatrixmodels/progressbar.py:ProgressBarSingleton.update", "parametricmatrixmodels/progressbar.py:ProgressBarSingleton.end", "parametricmatrixmodels/progressbar.py:ProgressBarSingleton.reset", "parametricmatrixmodels/progressbar.py:ProgressBarSingleton.start"])

p("The progress bar never goes back and predicts the time that is left",
  "Between two starts the number of filled places on the screen never decreases and is the fraction of progress times the length, rounded down; the seconds shown are the time the rest takes at the same pace, rounded down, and never negative.",
  "all sequences of calls with progress between 0 and the total and times that do not go back",
  "all numbers and orders of calls",
  ["parametricmatrixmodels/progressbar.py:ProgressBarSingleton.update"])

p("What a calibrated conformal model answers follows from the last calibration",
  "After a successful calibrate, the uncertainty of an input is the sum of the selected terms (parameters, and with training data inputs and distances), each divided by its size on the calibration data, and a call gives the corrected prediction and for each level the interval of the quantile of the calibration scores times the uncertainty; nothing that happened to the object before matters; a method for a term that is not selected gives None.",
  "all objects, arguments of calibrate, inputs, uncertainties and levels; all models and numerical functions",
  "all states before the calibration and all combinations of flags, trees of flags, training data and corrections",
  ["parametricmatrixmodels/conformal/conformalizedmodel.py:ConformalizedModel.calibrate", "parametricmatrixmodels/conformal/conformalizedmodel.py:ConformalizedModel.uncertainty_heuristic", "parametricmatrixmodels/conformal/conformalizedmodel.py:ConformalizedModel.parameter_sensitivity", "parametricmatrixmodels/conformal/conformalizedmodel.py:ConformalizedModel.input_sensitivity", "parametricmatrixmodels/conformal/conformalizedmodel.py:ConformalizedModel.__call__"])

p("A compiled Einsum or MatMul module can be called",
  "If compile succeeds, every batch of data of the compiled shapes, also an empty one, is evaluated, to an array of the sizes of the output letters (MatMul: of the size output_shape asks for); compiling again for the same shapes succeeds and changes nothing; a module that reports to be ready can be called.",
  "all notations, shapes, given sizes, parameters and arguments of MatMul; all batches; all sequences of compile and call",
  "all notations and shapes; whether a module is usable after compile shows only when it is called",
  ["parametricmatrixmodels/modules/einsum.py:Einsum.compile", "parametricmatrixmodels/modules/einsum.py:Einsum._get_callable", "parametricmatrixmodels/modules/einsum.py:Einsum.is_ready", "parametricmatrixmodels/modules/matmul.py:MatMul.compile"])

p("A composite module compiles exactly when its arguments fit the data",
  "For data of one axis, compile of AffineObservablePMM and AffineEigenvaluePMM succeeds exactly if the size of the matrices is known and positive, supplied matrices and observables are Hermitian and of the shapes that number of features, bias term, size, secondaries and output size imply, not more eigenvalues or eigenvectors are asked for than there are, and the rule is one of the eight names in any case; whatever was compiled before.",
  "all arguments of the constructors, all shapes of bare arrays, all sequences of earlier compile calls with any outcome",
  "all combinations of optional arguments, and all histories of failed compilations",
  ["parametricmatrixmodels/modules/affineobservablepmm.py:AffineObservablePMM.compile", "parametricmatrixmodels/modules/affineeigenvaluepmm.py:AffineEigenvaluePMM.compile", "parametricmatrixmodels/sequentialmodel.py:SequentialModel.compile"])

p("The reported number of trainable floats is the number of degrees of freedom",
  "get_num_trainable_floats of a ready module is the number of independent real numbers that determine its parameters: there is a linear one-to-one correspondence between that many real numbers and the parameters of the same shapes and dtypes that set_params accepts (Hermitian matrices for AffineHermitianMatrix, ExpectationValueSum and TransitionAmplitudeSum). For a model it is the sum.",
  "all sizes, all numbers of matrices, all module kinds with arrays, every field of numbers in which 2 is not 0",
  "all sizes; degrees of freedom are a statement about all parameter values",
  ["parametricmatrixmodels/modules/affinehermitianmatrix.py:AffineHermitianMatrix.get_num_trainable_floats", "parametricmatrixmodels/modules/lowrankaffinehermitianmatrix.py:LowRankAffineHermitianMatrix.get_num_trainable_floats", "parametricmatrixmodels/modules/expectationvaluesum.py:ExpectationValueSum.get_num_trainable_floats", "parametricmatrixmodels/modules/transitionamplitudesum.py:TransitionAmplitudeSum.get_num_trainable_floats", "parametricmatrixmodels/modules/basemodule.py:BaseModule.get_num_trainable_floats", "parametricmatrixmodels/model.py:Model.get_num_trainable_floats"])

p("The intervals of a calibrated ConformalizedModel have the documented coverage",
  "The class documentation promises that calibration turns the uncertainty heuristic into a rigorous guarantee on the coverage of the prediction intervals (and names uncertain labels as the only thing that breaks it). As a counting statement: for every n+1 samples and every alpha with 1/(n+1) <= alpha < 1, at least (n+1)(1-alpha) of the samples have their target in the interval that a model calibrated with the other n samples gives for them. This holds if the heuristic has one term and no bias is corrected. It is false with two terms, because their relative weights are fitted to the calibration data, and false with a global bias correction, because the bias is fitted to them. In all cases at least the fraction 1 - alpha of the calibration samples themselves lie in the intervals that the calibrated model gives for them.",
  "all numbers of samples, all predictions, targets and sensitivities, all levels alpha that n samples can reach; the two failures for all eps in (0, 1]",
  "coverage is a statement about all data sets; a test on one data set sees intervals of plausible width",
  ["parametricmatrixmodels/conformal/conformalizedmodel.py:ConformalizedModel.calibrate", "parametricmatrixmodels/conformal/conformalizedmodel.py:ConformalizedModel.__call__", "parametricmatrixmodels/conformal/conformalizedmodel.py:ConformalizedModel.uncertainty_heuristic"])

p("Modules are read and replaced by path",
  "model[path] returns the object in the place the path leads to, through containers and nested models, and fails otherwise. model[path] = x succeeds exactly if the last container can take it, then replaces what the path leads to (or adds an entry to a dictionary) and nothing else, and model[path] is x afterwards; a refused assignment moves no module. Afterwards no model that contains the place counts as compiled, and paths as reported by jax.tree_util (the annotated type) can be used.",
  "all nestings of lists, tuples, dictionaries and models, all paths, all objects assigned",
  "all nestings and paths; a model that wrongly stays compiled gives plausible results",
  ["parametricmatrixmodels/model.py:Model.__getitem__", "parametricmatrixmodels/model.py:Model.__setitem__"])

p("A model that is not ready says why",
  "is_ready answers True exactly if the model has modules, all of them, also inside nested models, are ready, and both shapes are set. If it answers False, the reason given in the error message is true: no modules, the complete list of modules that are not ready, or the shape that is missing, and never 'Unknown reason.'.",
  "all nestings of modules, containers and models",
  "all nestings; messages are rarely tested",
  ["parametricmatrixmodels/model.py:Model.is_ready", "parametricmatrixmodels/model.py:Model._get_all_unready_modules", "parametricmatrixmodels/model.py:Model._get_unready_reason", "parametricmatrixmodels/nonsequentialmodel.py:NonSequentialModel.is_ready"])

p("Texts of models show their modules",
  "Apart from indentation, the text of a model (and of any tree given to strfmt_pytree) consists of the brackets, the keys and the lines of every leaf, in order and once; a graph model lists every connection on a line of its own. Lines of leaves are not longer than max_leaf_chars. Closing brackets stand below their opening brackets, and parentheses match.",
  "all trees, texts of leaves, indentations, limits, names and connections",
  "all nestings, limits and leaf texts with any number of lines",
  ["parametricmatrixmodels/tree_util.py:strfmt_pytree", "parametricmatrixmodels/model.py:Model.__repr__", "parametricmatrixmodels/nonsequentialmodel.py:NonSequentialModel.__repr__", "parametricmatrixmodels/modules/basemodule.py:BaseModule.__repr__"])

p("Fine-tuning: saving and loading does not disturb training, and frozen modules stay as they are",
  "A model that is saved and loaded is the model there was, with the optimiser states, so that a save and load between any two trainings or changes of flags changes no later result and nothing of the final model (training with resume=True included). A module that is frozen at every training of such a history has at the end the parameters it had at the beginning. It is false that a frozen module keeps its parameters in every training: if parameters were set by hand since the last training, train(resume=True) puts those of the last training back, also into frozen modules.",
  "all models of modules that can be saved and accept their own parameters, at any depth; all sequences of trainings, changes of flags, saves and loads",
  "the test of fine-tuning has one model and one history; the statement is about all of them",
  ["parametricmatrixmodels/model.py:Model.train", "parametricmatrixmodels/model.py:Model.serialize", "parametricmatrixmodels/model.py:Model.deserialize", "parametricmatrixmodels/model.py:Model.get_trainable_modules", "parametricmatrixmodels/training.py:train"])

p("Module classes are checked when they are defined",
  "A class derived from BaseModule of which objects can be made has a valid version string and, if its constructor calls its first parameter self, can be constructed without arguments (as loading a model requires); a class statement that violates this raises an exception, abstract classes are always accepted, and nothing else is refused. The documentation also says that all methods of all subclasses are type checked at run time; this is false for methods inherited from abstract classes.",
  "all hierarchies of classes with single inheritance, all methods, signatures and versions",
  "a statement about classes that users have not written yet",
  ["parametricmatrixmodels/modules/basemodule.py:BaseModule.__init_subclass__"])

p("What is saved under a name is loaded under that name",
  "After save or save_compressed with a file name (string or pathlib.Path), load or from_file with the same argument reads what was saved, for models, scalers and conformal models; saving writes one file, whose name ends in .npz, and touches no other. This is false for conformal models saved under a name without .npz, and for all three when such a name is given as a Path: loading looks for a file without the suffix, and finds nothing or another file.",
  "all names, all contents of the directory",
  "a test uses one name, usually with the suffix",
  ["parametricmatrixmodels/model.py:Model.save", "parametricmatrixmodels/model.py:Model.save_compressed", "parametricmatrixmodels/model.py:Model.load", "parametricmatrixmodels/model.py:Model.from_file", "parametricmatrixmodels/preprocessing/scaler.py:Scaler.save", "parametricmatrixmodels/preprocessing/scaler.py:Scaler.load", "parametricmatrixmodels/conformal/conformalizedmodel.py:ConformalizedModel.save", "parametricmatrixmodels/conformal/conformalizedmodel.py:ConformalizedModel.from_file"])

p("Files of other versions",
  "With strict_package_version=True a model is loaded exactly if it can be loaded without it and every package version noted in the data, for the model and for the modules at every depth, is the present one; the result is the same. Without it the package versions do not matter, each module whose own version differs is loaded from what its upgrade method makes of its data, and modules of the present version are never upgraded. It is false that a refused file leaves the model as it was: it has been reset. A conformal model looks only at its own package version, so with strict_package_version=True it is false that a model of another version inside it is refused.",
  "all saved models with nested models, all versions, all upgrade methods",
  "there is only one version of every module so far, so no test can load an older file",
  ["parametricmatrixmodels/modules/basemodule.py:BaseModule.deserialize", "parametricmatrixmodels/modules/basemodule.py:BaseModule.upgrade", "parametricmatrixmodels/model.py:Model.deserialize", "parametricmatrixmodels/conformal/conformalizedmodel.py:ConformalizedModel.deserialize"])

p("A precision that is set lasts",
  "After set_precision or astype all parameters of the model have the precision asked for, and they keep it through training, freezing, setting parameters of that precision and edits, until another one is set. This is false of training that is resumed with optimiser states from before: it always brings the old precision back.",
  "all sequences of operations, all parameters",
  "a test trains in one precision",
  ["parametricmatrixmodels/model.py:Model.set_precision", "parametricmatrixmodels/model.py:Model.astype", "parametricmatrixmodels/model.py:Model.train"])

p("Gradients are taken in a direction that fits",
  "A gradient (grad_input, grad_params) that can be taken forward or backward exists when it is asked for; if no direction is asked for, it is taken forward exactly if fewer numbers go into the model than come out. Training in reverse is possible exactly if something is trainable, forward exactly if moreover all trainable parameters are real. The first sentence is false of the code: sizes are added up where they should be multiplied, complex numbers (the default of the matrix modules) are not considered, and a first gradient that fails makes all later ones with the same batching options fail, whichever direction is asked for.",
  "all shapes and kinds of numbers, all sequences of gradients",
  "a test takes one gradient of one model",
  ["parametricmatrixmodels/model.py:Model.grad_params", "parametricmatrixmodels/model.py:Model.grad_input", "parametricmatrixmodels/training.py:train"])

p("Initial parameters are drawn independently",
  "When compile initialises the modules of a model, nested sequential and graph models included, no random key is used for two arrays (or for the real and the imaginary part of one), and no key is used from which another one that is used was obtained. In a sequential model the initial parameters of a module depend neither on the modules behind it nor on whether other modules were given their parameters beforehand. Complex initial parameters have real and imaginary parts of the same size.",
  "all module classes that draw parameters, all nestings of sequential and graph models, all shapes, all seeds, any subset of modules with given parameters",
  "Keys that coincide give correlated numbers that look random in every single array; whether two of them coincide depends on the whole model, of which there are infinitely many.",
  ["parametricmatrixmodels/sequentialmodel.py:124-150", "parametricmatrixmodels/nonsequentialmodel.py:484-526", "parametricmatrixmodels/modules/bias.py:204-248", "parametricmatrixmodels/modules/einsum.py:718-739", "parametricmatrixmodels/modules/affinetensor.py:191-209", "parametricmatrixmodels/modules/lowrankaffinehermitianmatrix.py:240-259"])
p("Every training step has random numbers of its own",
  "The keys with which the model is called in the training steps that led to the returned parameters are independent of each other and of the key that is returned (which later predictions and trainings use), and so are the keys of all modules inside nested sequential models. No module gets in a validation a key that another gets in a training step.",
  "all training runs (data, batch sizes, numbers of epochs, losses, callbacks, stopping rules), all nestings of sequential models",
  "Repeated keys do not change the type or shape of anything, and a training with repeated random numbers still converges in most cases.",
  ["parametricmatrixmodels/training.py:333", "parametricmatrixmodels/training.py:1068", "parametricmatrixmodels/training.py:977-992", "parametricmatrixmodels/sequentialmodel.py:303-304", "parametricmatrixmodels/model.py:1205-1247"])

p("Interrupting a training",
  "In a verbose training the first SIGINT or SIGTERM ends the training after the current epoch without an exception, and signals that arrived before it have no influence. A second signal while it runs ends it at once with KeyboardInterrupt. Signals that arrive outside of a verbose training do what they do in Python. The last two are false: once the loop of a verbose training runs a second signal has no effect, and after such a training no signal has an effect any more in the process, so that it can neither be interrupted nor terminated, and later trainings with verbose=False run to their end. Signals keep their meaning exactly as long as no verbose training has been started in the main thread; outside the main thread a verbose training (the default) fails.",
  "all sequences of trainings and signals, any number of signals at any time, all reasons to stop",
  "A test would have to send signals to its own process; the effect shows after the training that was tested.",
  ["parametricmatrixmodels/training.py:GracefulKiller", "parametricmatrixmodels/training.py:_train"])
p("The announced shape of a function module",
  "A module made from a function f by subclassing FuncBase accepts in compile exactly the shapes it can be called with, and the output shape it announces is the shape of what it returns, for every number of samples; an f that fails on the trial input is reported as RuntimeError. True if f treats every sample on its own and the shapes of its result depend on the shapes of its argument only (such functions may be composed). False otherwise: the trial run has one sample, so that f=squeeze announces the wrong shape, and an f that adds up the samples passes compile and fails in every call with more than one sample.",
  "all functions on trees of arrays, all input shapes, all numbers of samples and all data",
  "The function is written by the user; a test has a few of them.",
  ["parametricmatrixmodels/modules/funcbase.py:FuncBase.get_output_shape", "parametricmatrixmodels/modules/funcbase.py:FuncBase.compile", "parametricmatrixmodels/modules/funcbase.py:FuncBase._get_callable"])

p("Models inside models are compiled for what they get",
  "After compile has succeeded, every module in the model and in the models inside it was compiled for the shape that the modules before it give, and every one of these models announces the shape it gives; this stays so when the model is compiled again for other shapes. get_output_shape answers with the shape that input of the given shape would lead to. True of models in which no model has been compiled before, and of all models made of sequential models only. False of a graph model with a sequential model inside that was compiled before: the modules behind it are compiled for the shape it gave then, and the graph model announces a wrong shape. get_output_shape of a compiled model ignores its argument.",
  "all nestings of sequential and graph models, all modules, all shapes, any number of compilations",
  "A test compiles a fresh model; the failure needs a model that was compiled for one shape and is then used inside another one.",
  ["parametricmatrixmodels/sequentialmodel.py:SequentialModel.compile", "parametricmatrixmodels/sequentialmodel.py:SequentialModel.get_output_shape", "parametricmatrixmodels/nonsequentialmodel.py:NonSequentialModel.compile", "parametricmatrixmodels/nonsequentialmodel.py:NonSequentialModel.get_output_shape"])

p("A callback that keeps the parameters within a set",
  "If the callback of a training always answers with parameters within some set (a projection, a normalisation) and the initial parameters are in it, then every training step and every epoch starts with parameters in the set and the parameters that train leaves in the model are in it. True of the start of every epoch only: the callback is called after each epoch and not, as documented, after each training step, and the parameters that are kept as the best ones are those before the callback got them. What the callback does after the last epoch has no influence on anything, so that with epochs=1 it has no effect at all.",
  "all sets of parameters, all callbacks, losses, data, batch sizes, numbers of epochs and reasons to stop",
  "A test checks that the callback is called; that the result of the training is not what the callback returned shows only for a callback that changes something.",
  ["parametricmatrixmodels/training.py:1005-1025", "parametricmatrixmodels/training.py:1033-1049", "parametricmatrixmodels/training.py:490-493"])

p("A model inside a model is its modules in place",
  "A sequential model whose modules are (partly) sequential models, to any depth, returns for the same parameters and states the output of the sequential model made of the innermost modules in order, and stores for each of them the state that model stores; one fails exactly if the other does. This holds for modules that do not use random numbers; modules that do are given the keys of the nested splits, so that writing out an inner model changes their random numbers.",
  "all modules, all nestings, all parameters (other than None) and states, all data, training or not, all random keys",
  "There is no end of nestings, and the models of the tests are not nested.",
  ["parametricmatrixmodels/sequentialmodel.py:SequentialModel._get_callable", "parametricmatrixmodels/model.py:302", "parametricmatrixmodels/model.py:363"])

p("Every epoch is shuffled anew",
  "In every epoch of a training the training data and the validation data are shuffled with random keys that are independent of each other, of those of all other epochs, and of the keys with which the model is called in the training steps. The last is true if neither of the model's key and batch_rng was obtained from the other; it is false if the same seed is given to both: the keys that shuffle the epochs are then keys of training steps. The first holds for callbacks that leave the key alone (as the default does).",
  "all training runs (data, batch sizes, numbers of epochs, losses, stopping rules), all keys",
  "The orders look random in each case; only by comparing the keys it shows that they repeat.",
  ["parametricmatrixmodels/training.py:885-898", "parametricmatrixmodels/training.py:978-992", "parametricmatrixmodels/training.py:1068", "parametricmatrixmodels/training.py:1625-1634", "parametricmatrixmodels/model.py:128-133"])

p("Editing a graph model does not rewire it",
  "If a module is added to a graph model, or one that no connection mentions is taken away, the model afterwards computes with the same connections what it computed before; if a module that a connection mentions is taken away, the next compilation is refused. True if the modules are in a dictionary, for all edits, and for modules appended to a list. False of lists otherwise: connections name modules by their positions, so that a module inserted or prepended, or the removal of an unconnected one, silently makes the connections mean other modules.",
  "all networks of the safe class, all connections, all edits at all positions, all modules, parameters and states",
  "A test builds the model it wants; the wrong model after an edit compiles and runs like any other.",
  ["parametricmatrixmodels/model.py:Model.insert_module", "parametricmatrixmodels/model.py:Model.append_module", "parametricmatrixmodels/model.py:Model.prepend_module", "parametricmatrixmodels/model.py:Model.pop_module_by_index", "parametricmatrixmodels/model.py:Model.pop_module_by_key", "parametricmatrixmodels/nonsequentialmodel.py:NonSequentialModel.compile"])

p("A mixed scaler scales each part by its own data",
  "After a mixed scaler was fitted, transform and inverse_transform scale each part of the data by the statistics of that part of the data of the last fit and of nothing else, leave the parts without a scaler alone, and succeed on data of the same structure if the scalers do; fitting (even if it raises) does not change what other scalers do. True to any depth of mixed scalers within mixed scalers if every scaler object is used in one place. False if one object is used twice: the tree holds references, so that MixedScaler({'a': s, 'b': s}) scales both parts by the statistics of 'b', and of two mixed scalers with an object in common the one fitted last changes the other.",
  "all trees of scalers and data, all scaler classes, all depths of nesting, all histories of earlier fits",
  "The tests give every entry a scaler of its own; a shared one is fitted and transforms without complaint.",
  ["parametricmatrixmodels/preprocessing/mixed_scaler.py:MixedScaler.fit", "parametricmatrixmodels/preprocessing/mixed_scaler.py:MixedScaler.transform", "parametricmatrixmodels/preprocessing/mixed_scaler.py:MixedScaler.inverse_transform"])

p("Every module name that a graph model accepts can be used",
  "NonSequentialModel({k: module}, {'input': k, k: 'output'}) returns what the module returns, and its new state under k, for every name k that the constructor accepts. True exactly for the non-empty names without the separator that do not begin with 'output'. False otherwise: a name with the separator is accepted and the model never runs; the empty name is accepted and the model does not compile; with a name like 'output_layer' the model silently returns a dictionary of the module's input and output instead of its output. 'input' and 'output' themselves are refused by the constructor but not by append_module, insert_module or item assignment.",
  "all names, separators, modules, parameters, states, data and keys",
  "The tests use short letters and M1, M2, ... as names; an output with an extra entry of the same shapes is not an error.",
  ["parametricmatrixmodels/nonsequentialmodel.py:NonSequentialModel.__init__", "parametricmatrixmodels/graph_util.py:place_connections_in_tree", "parametricmatrixmodels/graph_util.py:partition_connections_by_tree", "parametricmatrixmodels/model.py:Model.append_module"])

p("Calibration warns about a feature exactly if it looks different from what was said",
  "Unless skip_sanity_checks is set, ConformalizedModel.calibrate compares every leaf of the training data (calibration data if there are none) with its entry in continuous_features, and warns exactly if for some leaf 'more than 10 different samples, and more than 5 percent of the samples' and the entry disagree, whatever the order of the samples. In particular data in which no sample occurs twice, said to be continuous, give no warning. True for at most MAX_N = 100000 samples with at most MAX_K = 100 entries along their first axis, and the consequence for any number of samples above ten. False otherwise: with at most ten samples every feature said to be continuous causes the warning; samples that differ only behind the first 100 entries count as equal; and a leaf with one number per sample (array with one axis) makes calibrate fail with an IndexError, although the model accepts such data and calibrate accepts them with skip_sanity_checks.",
  "all data, flags, numbers and orders of samples, all values of MAX_N and MAX_K",
  "The check only warns; tests use two-dimensional arrays with hundreds of samples.",
  ["parametricmatrixmodels/conformal/conformalizedmodel.py:ConformalizedModel.calibrate", "parametricmatrixmodels/conformal/conformalizedmodel.py:361-417"])

p("The outputs of a compiled model have an axis besides the samples",
  "After compile succeeded for the shape of the data, every array that a call of the model returns has at least one axis besides the one of the samples; and compile rejects models only for that reason if their modules accept the shapes they get.",
  "all sequential and graph models, all modules that announce their shapes truthfully, all data",
  "the check is a length of a structure that can be a tuple of sizes or a container; only containers with arrays without axes show the difference",
  ["parametricmatrixmodels/sequentialmodel.py:SequentialModel.compile", "parametricmatrixmodels/sequentialmodel.py:SequentialModel.get_output_shape", "parametricmatrixmodels/nonsequentialmodel.py:NonSequentialModel.compile"])

p("Rewiring one graph model leaves the others as they are",
  "An entry written into the connections of one NonSequentialModel (model.connections[k] = v) shows in that model and in no other. True in every program that makes no copies and hands each of its own dictionaries to one model once; and building, copying, loading and assigning to the attribute never change the connections of another model. False otherwise: copy(), documented as a deep copy, hands on the same dictionary object, so that rewiring the copy rewires the original (and the other way round) until one of the attributes is assigned anew; the constructor keeps the dictionary it is given, so that two models built from one dictionary share it. Models read from a file have their own.",
  "all programs of any length that build, copy, save and load graph models and change their connections",
  "Tests copy a model and compare what the two return; only an edit of one of them and a look at the other would show it, and only when it is an edit in place.",
  ["parametricmatrixmodels/nonsequentialmodel.py:NonSequentialModel.__init__", "parametricmatrixmodels/nonsequentialmodel.py:NonSequentialModel.get_hyperparameters", "parametricmatrixmodels/nonsequentialmodel.py:NonSequentialModel.set_hyperparameters", "parametricmatrixmodels/modules/basemodule.py:BaseModule.copy"])

p("The state of a model is put back where it was taken",
  "set_state(get_state()) changes no module; and calls with update_state=True return what the callable returns when the states are handed from call to call by hand, and leave the last states in the modules. A call without update_state changes no module. True for sequential models in which no module object is used in two places (the first part for all sequential models), and for graph models of which every module is ready. False otherwise: a module of a graph model that is not connected and not ready is given None by set_state, after every call with update_state, after training and on loading, so that it loses its state or raises (then the call raises a ValueError after computing its result); a module object used in two places has one state, into which both states are written, the last one staying.",
  "all models, modules with any kind of state, all sequences of calls",
  "No module of the package has a state; tests of update_state need modules of their own.",
  ["parametricmatrixmodels/model.py:Model.get_state", "parametricmatrixmodels/model.py:Model.set_state", "parametricmatrixmodels/nonsequentialmodel.py:NonSequentialModel.get_state", "parametricmatrixmodels/model.py:Model.__call__"])

p("A sample without uncertainty does not spoil the intervals of the others",
  "If calibration samples have an uncertainty of zero (all their sensitivities vanish), the intervals for samples of positive uncertainty keep the documented coverage: at least the fraction 1 - alpha of any samples lie within the interval given after calibration with the others, or have no uncertainty themselves. True for alpha >= 2/(n+1) if no calibration sample without uncertainty is predicted exactly; with positive uncertainties throughout it is the guarantee of C42. False otherwise: one calibration sample with uncertainty zero and residual zero has the score 0/0, and then the quantile is NaN and no interval for any sample and any alpha contains anything; and for 1/(n+1) <= alpha < 2/(n+1) one infinite score is enough, because the quantile is computed as inf * 1 + inf * 0. Nothing is raised or warned about.",
  "all numbers of samples, residuals, uncertainties (zero or positive) and alphas",
  "Exactly zero sensitivities do not occur with random test data; NaN intervals are arrays of the right shape.",
  ["parametricmatrixmodels/conformal/conformalizedmodel.py:ConformalizedModel.calibrate", "parametricmatrixmodels/conformal/conformalizedmodel.py:ConformalizedModel.get_qhat", "parametricmatrixmodels/conformal/conformalizedmodel.py:ConformalizedModel.__call__"])

p("Training in two parts",
  "train for e1 epochs followed by train(resume=True) for e2 epochs leaves a model with the parameters, states and moments that one training for e1 + e2 epochs leaves, provided that nothing in it is left to chance. It holds if the optimiser does not read its epoch counter, the losses do not use the number of the epoch and the last epoch of the first part is its best one; each of the three is needed. If resuming for e epochs changed nothing once, it changes nothing however often it is repeated, with whatever batch keys.",
  "all numbers of epochs, models, flags, data and settings; losses that depend neither on the order of the samples nor on keys, with all samples in one batch",
  "one long run has to be compared with all ways to interrupt it; a small deviation of the optimiser counter does not fail a test that only looks whether the loss goes down",
  ["parametricmatrixmodels/model.py:Model.train", "parametricmatrixmodels/training.py:train", "parametricmatrixmodels/training.py:_train", "parametricmatrixmodels/training.py:adam", "parametricmatrixmodels/training.py:complex_adam"])

p("A failed load does not leave a wrong model in use",
  "If load or deserialize raises an exception, the model is as it was before. This is false: the model is reset first, and its modules are replaced before they are filled, so that after an exception it may have fresh modules among loaded ones, which train compiles and uses without complaint. What holds: such a model cannot be called until it is compiled again, unless only the model's own parameters or states were refused after all modules had come back; a file refused for its version or for an unknown class leaves modules, key and name alone; and a successful load gives everything in the file, whatever the model was it was loaded into.",
  "all models, saved data, versions and points at which loading can fail",
  "a test of loading uses files that can be loaded, or looks only at the exception",
  ["parametricmatrixmodels/model.py:Model.deserialize", "parametricmatrixmodels/model.py:Model.reset", "parametricmatrixmodels/model.py:Model.is_ready", "parametricmatrixmodels/model.py:Model.set_hyperparameters", "parametricmatrixmodels/modules/basemodule.py:BaseModule.deserialize"])

p("Saved data can be loaded again",
  "Loading a model from a dictionary (deserialize) leaves the dictionary as it was. This is false: the entry \"trainable\" is taken out of the own entries of the model and of every model inside it, also when loading fails later on. What holds: nothing else is taken out, data of single modules are left alone, and what is loaded, or the exception, does not depend on what is taken out, so that the same data can be loaded any number of times with the same outcome.",
  "all saved data with models nested to any depth, all places at which loading may fail",
  "a test loads its data once; the second load succeeds, and the change shows only when the data are looked at",
  ["parametricmatrixmodels/model.py:Model.deserialize", "parametricmatrixmodels/modules/basemodule.py:BaseModule.deserialize"])

with open('/verif/properties.jsonl','w') as f:
    for q in P: f.write(json.dumps(q)+"\n")
print(len(P))
