{
"C01": [
"proved",
"Bijection proved for all fully defined shapes; on a shape with an unknown dimension the code divides by zero (refuted theorem)."
],
"C02": [
"proved",
""
],
"C03": [
"proved",
"Reflexive and symmetric; transitivity, not claimed, is shown false."
],
"C04": [
"proved",
""
],
"C05": [
"proved",
"Commutativity needs compatibility: refuted theorem shows the failure without it."
],
"C06": [
"proved",
"with_rank below the rank drops dimensions (refuted theorem)."
],
"C07": [
"proved",
"64-bit wrap modelled explicitly; overflow witness."
],
"C08": [
"proved",
""
],
"C09": [
"proved",
"Unrestricted compatibility with the allowed shape is refuted."
],
"C10": [
"proved",
"One allocator, allocation never fails (simplification)."
],
"C11": [
"proved",
"Silently ignored request shown by a refuted theorem."
],
"C12": [
"proved",
"Doc claim 'out-of-bound coordinate throws' refuted; exact throwing condition proved."
],
"C13": [
"proved",
"Three corner cases refuted."
],
"C14": [
"proved",
"Rank mismatch and NDEBUG cases refuted."
],
"C15": [
"proved",
"Safety for overlong data and atomicity of the allowed shape are refuted; C15_malformed_proto covers the rest."
],
"C49": [
"proved",
""
],
"C16": [
"proved",
"Two refuted theorems for axes beyond the rank."
],
"C17": [
"proved",
"Index beyond the rank refuted."
],
"C18": [
"proved",
""
],
"C19": [
"proved",
"Shape without axis refuted."
],
"C20": [
"proved",
"Rejection of a bad axis refuted."
],
"C48": [
"proved",
"exact shape proved for all sizes; the out-of-bounds read is proved for every image, filter size and pair of axes in increasing order; cross_corr2d's gradient throws and is not modelled further"
],
"C21": [
"proved",
"cubic path for any element type; shape function; transposed arguments through the transpose nodes; two findings as _refuted theorems"
],
"C22": [
"proved",
"strassen verified on block memory with arbitrary uninitialised scratch content, any ring, any threshold; whole forward pass equal to the cubic one"
],
"C23": [
"proved",
"Generic over the element type and function; forward_pass with and without a previous tensor."
],
"C24": [
"proved",
"Generic over element type and function."
],
"C25": [
"proved",
"Reuse of an existing node by label is C32. Floating point rounding is not modelled: the laws are stated as a record satisfied by the reals."
],
"C26": [
"proved",
"Over the reals."
],
"C27": [
"proved",
"Objects are modelled with their dependencies_ and audience_ containers, destruction phases and kill conditions; histories are the inductive relation `reach`. Self-destruction cascades (constants, generators, broken connectors) are followed through the real call structure (detach -> death_on_noparent -> delete -> ~iobserver -> ...). Two `_refuted` theorems give the generator findings."
],
"C28": [
"proved",
"The set of casualties is characterised independently by the inductive predicate `dead` (ReactSpec.v); proved equal to what the mutually recursive destructors do, by induction on the number of live objects. graph_manager::suicide and on-death dependents are not part of this model (see C29). `_refuted` theorem for the null-tail observer."
],
"C33": [
"proved",
"Heap-level model of ileaf/ivariable/placeholder/variable/assign_func; histories from the empty world; `observe` is eval + get_shape + expose. Findings are `_refuted` theorems or exact side conditions of the updater theorems. Updater inputs that are operation nodes are represented by the tensor they evaluate to."
],
"C34": [
"proved",
"constant.ipp constructors and const_axis on the tensor heap; two `_refuted` theorems for the undefined-behaviour corners."
],
"C40": [
"proved",
"Pointer-level model of the doubly linked list, umap_ and iterators; each call is one atomic step because of mutex_; the specification is in terms of the list of all added values. Memory reclamation by shared_ptr is not modelled. The four findings are `_refuted` theorems."
],
"C46": [
"proved",
"Registry as key/instance bindings; classes are numbers with an arbitrary derivation relation."
],
"C47": [
"proved",
"adjlist_record's map of sets, the recorder calls of subject.cpp, and rpc_record's edge cache (reusing the C40 cache model). record_status::rec_good is taken as true."
],
"C41": [
"proved",
"experiences_ as a list, indices and swaps as in the code. The eviction finding is a `_refuted` theorem."
],
"C42": [
"proved",
"doubles are reals; random numbers and shuffles are arbitrary arguments."
],
"C43": [
"proved",
"Uses the elementwise operation model (ElemModel.v) for rate*(t-s) including its special cases 0, 1, -1, and assign_sub. The source network's own update is an arbitrary function here (C38 treats it). Reals."
],
"C50": [
"proved",
"Feeding the placeholders is recorded as the data assigned; their shape check is C33."
],
"C35": [
"proved",
"The file is a map from keys to tensor messages (protobuf encoding trusted). Findings stated as _refuted theorems. ShutdownProtobufLibrary being called after every save/load is not modelled."
],
"C29": [
"proved",
"Model EvalModel.v: values are of an arbitrary type, the functions of operations arbitrary partial functions, notification order and choice among equal depths arbitrary. Destruction of nodes, generators and mutables are not part of this model."
],
"C30": [
"proved",
"The forward passes started are recorded in the model's log (elog)."
],
"C31": [
"proved",
"The wished property (reassigning the leaf suffices) is refuted by C31_refuted; the exact recovery rule is proved."
],
"C38": [
"proved",
"Tensor arithmetic is abstract (arith), instantiated with real numbers in the examples and refutations; the gradient node is given. Refuted parts: C38_rmsprop_refuted, C38_simultaneous_refuted, C38_unimplemented_refuted."
],
"C39": [
"proved",
"Reals, no floating-point overflow. Composed from the modelled builders of elementary.ipp and reduce_sum, including their constant folding. Refuted part: C39_softmax_batch_refuted."
],
"C36": [
"proved",
"Real numbers; derivative in the sense of the standard library (derivable_pt_lim). Nodes are trees; reuse of existing nodes is C32. csc is covered where also cos is non-zero, because its gradient divides by tan. Refuted parts: C36_plus_refuted, C36_clip_refuted, C36_round_refuted, C36_derive_node_refuted."
],
"C44": [
"proved",
"Variables live in a store; nodes are the expressions of GradModel and values are those of eval (matmul incl. Strassen, add_axial_b, elementwise ops). Weight initialisation values are arbitrary (any data of the right shape)."
],
"C45": [
"proved",
"Object identity of variables is modelled by positions in a store, deletion by clearing the position. Pure code defects are stated by the _refuted theorems. The graph nodes of a gd_net copy are rebuilt by setup on the cloned network."
],
"C37": [
"proved",
"Real numbers. C37_training_gradient is the main theorem (Jacobian lists, matmul backward, bias sums, activations, squared error). Refuted parts: C37_broadcast_refuted, C37_reduce_max_refuted, C37_bias_sum_refuted, C37_softmax_refuted, C37_skip_refuted, C37_bias_product_refuted, C37_explicit_transpose_refuted. Gradients of extend, flip, reductions along an axis and reduce_mean are not modelled; the clip_val one is C36_clip_refuted."
],
"C32": [
"proved",
"CseModel.v models labels, audience search, reuse and the undo shortcuts for the whole set of builders; values by the forward passes of the other models. Shortcuts for constants and scalars 0 and 1 are in C25, so leaves here are non-constant. binomial_sample, shape_dep nodes and metadata are not modelled. The returned node's gradient is not part of the theorem (see C37)."
],
"C51": [
"proved",
"Graph-level law C51_simultaneous for every history and order; C51_gradient_descent composes it with C37_training_gradient (exact reals, node identity as in C37). Hypothesis: train returns (an uninitialised parameter makes it throw). Refuted without a shared operation: C51_unconnected_refuted."
],
"C52": [
"proved",
"Interleaving model with arbitrary workers; relaxed atomics taken as sequentially consistent; the promise handshake of the constructor is one step. Exceptions other than thread_interrupted leaving the worker are not modelled."
],
"C53": [
"proved",
"Stated on top of the graph-construction model of C32/C33, which now includes shape nodes (they are reused under the same rules)."
],
"C54": [
"proved",
"Refinement of a memory-free specification (GenSpec.v) by a model over the tensor heap. Which notifications trigger update and when generators are deleted is left free (C27). Gradients of generators are constants and not part of this property."
],
"C55": [
"proved",
"SubModel.v/SubLaws.v. subscriptions_ is used by several threads without a lock; the model takes each operation on it as atomic."
],
"C56": [
"proved",
"CsvModel.v/CsvSpec.v/CsvLaws.v, composed with C47 for the contents of the recorder. The iterator sit used after an insertion (formally invalidated by a rehash) is taken as valid."
],
"C57": [
"proved",
"Values over the real numbers (no rounding, no overflow of exp). The samples (binomial_sample) are arguments. Two findings: C57_pseudo_likelihood_refuted, C57_reconstruction_sign. Not covered: the gradients that train takes of the cost (through reduce_sum along an axis)."
],
"C58": [
"proved",
"labels after a move and observers of moved variables are not modelled beyond what is stated; dimensions below 2^64; inputs not larger than the filter (wrap-around) are left to C48"
],
"C59": [
"proved",
"exact real arithmetic; the chain's end is an arbitrary node without the machine's variables (the sampled chain and as_constant are not modelled); the input's and chain's products fit"
],
"C60": [
"proved",
"a draw is an arbitrary value allowed by the binomial distribution's support; that draws are distributed so is std::binomial_distribution's contract; exact real arithmetic"
],
"C61": [
"proved",
"the step functions are evaluated in the environment before the step, as freezing the cost does (C51, C50); exact real arithmetic; a draw is any value in the binomial distribution's support"
],
"C62": [
"proved",
"the sampled end of the chain is a node whose value in the state before the call is the sample; operations are functions of their arguments (EvalModel), so one evaluation of a sampling node gives one value; exact real arithmetic; C62_finetune_returns and C62_rbm_returns show that the hypotheses can be met for every network (learning rate other than 1)"
],
"C63": [
"proved",
"the uniform and constant initializers are recorded with their limits, the values they draw are C33's arbitrary sequence; numerals are modelled by the standard library's decimal printing"
],
"C64": [
"proved",
"exact real arithmetic; tensors of more than one element (for one element see C36); the positive part covers reduce_sum and reduce_mean along any axis and over all elements, for extend and flip the exact relation between the gradient's elements and the derivatives is proved"
],
"C65": [
"proved",
"exact real arithmetic; gradient nodes as built by derive (C37), no activation functions that are not smooth; the updaters are called between freezing and unfreezing the error as gd_net::train does; tensors have one shape per parameter"
],
"C66": [
"proved",
"exact real arithmetic; the case of equal axes is characterised completely, including the cases in which the code throws or leaves its buffers"
],
"C67": [
"proved",
"exact real arithmetic; with respect to the large argument . For the number -1 as the gradient of a product's large argument, and for non-constant gradients of a single element, nothing is stated"
],
"C68": [
"proved",
"exact real arithmetic; with respect to the small argument (C67 for the large one). Sums and differences are stated for the variable itself"
],
"C69": [
"proved",
"exact real arithmetic; these nodes as the root of the expression derived. clip_norm and the comparisons are stated for variables as arguments"
],
"C70": [
"proved",
"labels and observers are not part of this model (observers of assigned nodes: ReactModel)"
]
}