{"id": "C01", "title": "Flat index and coordinate are inverse", "statement": "For a fully defined shape, coordinate_from_idx maps every flat index below n_elems to a coordinate that has the shape's rank and lies inside every dimension, and flat_idx maps it back to the same index; conversely flat_idx maps every in-bounds coordinate to an index below n_elems and coordinate_from_idx returns that coordinate. So the two functions are a bijection between indices and in-bounds coordinates.", "quantifier": "all ranks, all dimension lists with positive entries, all indices and all coordinates", "why_tests_cant": "shapes and indices are unbounded; a test samples a few small shapes", "anchors": ["app/tenncor/src/tensor/tensorshape.cpp: tensorshape::flat_idx, tensorshape::coordinate_from_idx, tensorshape::n_elems"]}
{"id": "C02", "title": "iterate visits every element exactly once, in storage order", "statement": "tensorshape::iterate calls its callback exactly n_elems times; the i-th call passes index i together with the coordinate of i, and every in-bounds coordinate is passed exactly once.", "quantifier": "all fully defined shapes", "why_tests_cant": "the set of shapes is infinite", "anchors": ["app/tenncor/src/tensor/tensorshape.cpp: tensorshape::iterate"]}
{"id": "C03", "title": "Shape compatibility is a reflexive and symmetric relation", "statement": "is_compatible_with is reflexive and symmetric, and an undefined shape is compatible with every shape.", "quantifier": "all pairs of shapes, including undefined and partially defined ones and shapes of different rank", "why_tests_cant": "pairs of shapes of any rank cannot be enumerated; the code has asymmetric-looking branches for rank mismatch", "anchors": ["app/tenncor/src/tensor/tensorshape.cpp: tensorshape::is_compatible_with"]}
{"id": "C04", "title": "Compatibility of fully defined shapes preserves element count", "statement": "Two fully defined shapes are compatible exactly when they are equal once leading and trailing dimensions of size one are dropped (equal rank: exactly when equal); hence compatible fully defined shapes have the same n_elems.", "quantifier": "all pairs of fully defined shapes", "why_tests_cant": "infinite domain; buffers are reused between compatible shapes so one counterexample is a memory error", "anchors": ["app/tenncor/src/tensor/tensorshape.cpp: tensorshape::is_compatible_with, tensorshape::trim, tensorshape::n_elems"]}
{"id": "C05", "title": "merge_with combines information or throws", "statement": "merge_with throws exactly when both shapes are defined and their ranks differ; otherwise on each dimension it returns the receiver's value when that is known and the argument's otherwise; merging two equal-rank compatible shapes is commutative, idempotent, yields a shape compatible with both and never loses a known dimension.", "quantifier": "all pairs of shapes", "why_tests_cant": "infinite domain of shapes", "anchors": ["app/tenncor/src/tensor/tensorshape.cpp: tensorshape::merge_with"]}
{"id": "C06", "title": "Rank adjusting shape functions preserve element count and hit the requested rank", "statement": "trim and with_rank_at_least preserve the element order and the number of elements of a fully defined shape (except an all-ones shape, which trims to the undefined shape); with_rank(n) has exactly rank n, with_rank_at_least(n) has rank max(n, rank), with_rank_at_most(n) has rank min(n, rank); concatenate multiplies element counts and adds ranks.", "quantifier": "all shapes and all requested ranks", "why_tests_cant": "infinite domain; truncation can pick dimensions at either end", "anchors": ["app/tenncor/src/tensor/tensorshape.cpp: tensorshape::trim, with_rank, with_rank_at_least, with_rank_at_most, concatenate, n_elems, n_known"]}
{"id": "C07", "title": "Element count is exact unless it overflows size_t", "statement": "n_elems equals the mathematical product of dimensions whenever that product is below 2^64; when it is not, the computed count is the product modulo 2^64 and a shape with a huge mathematical size may be reported as having 0 elements.", "quantifier": "all lists of 64-bit dimensions", "why_tests_cant": "overflow needs dimensions no test can allocate", "anchors": ["app/tenncor/src/tensor/tensorshape.cpp: tensorshape::n_elems, tensorshape::n_known"]}
{"id": "C08", "title": "fit_toshape copies the common sub-block and zeroes the rest", "statement": "fit_toshape(dest, outshape, src, inshape) writes only inside dest, reads only inside src, and afterwards dest at every coordinate of outshape holds src at that coordinate when the coordinate also lies in inshape (missing trailing coordinates read as 0 and extra input coordinates are 0), and zero otherwise.", "quantifier": "all pairs of fully defined shapes of any ranks and all source contents", "why_tests_cant": "infinite domain; pointer arithmetic with jumps can go out of bounds only for particular rank/size combinations", "anchors": ["app/tenncor/src/tensor/tensor.ipp: fit_toshape", "app/tenncor/src/graph/operations/transform.ipp: fit"]}
{"id": "C09", "title": "A tensor's buffer always has the size its shape says", "statement": "After any sequence of construction, set_shape, allocate, deallocate, copy, move, copy_from, from_proto and assignment over a set of tensors, whenever a tensor has a buffer its allocated shape is fully defined, the buffer is live and holds exactly n_elems elements. The allocated shape also stays compatible with the allowed shape along every history in which set_shape on an allocated tensor is given a fully defined shape or one of the allocated rank and from_proto a consistent message; a partially known shape of another rank breaks that (finding).", "quantifier": "all finite histories of tensor operations with arbitrary shapes", "why_tests_cant": "histories are unbounded", "anchors": ["app/tenncor/src/tensor/tensor.ipp: tensor constructors, set_shape, allocate, deallocate, copy_from, copy_helper, move_helper"]}
{"id": "C10", "title": "No leak and no double free", "statement": "Across every finite history of tensor construction, copy, move, reshape, reallocation and destruction over a set of tensors, every buffer obtained from the allocator is owned by at most one live tensor, is released at most once, is never used after release, and when all tensors are destroyed no buffer remains.", "quantifier": "all finite histories over any number of tensors", "why_tests_cant": "leaks and double frees depend on the history, which is unbounded", "anchors": ["app/tenncor/src/tensor/tensor.ipp: ~tensor, deallocate, set_shape, allocate, copy_helper, move_helper, copy_from"]}
{"id": "C11", "title": "set_shape on an allocated tensor keeps the surviving data", "statement": "set_shape on an allocated tensor: a fully defined incompatible shape reallocates to exactly that shape and keeps, at each coordinate common to the old and new shapes, the old value, filling the rest with zero; a shape compatible with the allocated one changes neither shape nor data; a partially known incompatible shape of the same rank takes its unknown dimensions from the old shape. When the allowed shape has another rank the request can be silently ignored (finding).", "quantifier": "all tensors, contents and new shapes", "why_tests_cant": "infinite domain", "anchors": ["app/tenncor/src/tensor/tensor.ipp: set_shape, copy_from, fit_toshape"]}
{"id": "C12", "title": "Tensor element access agrees with expose and rejects out-of-bound coordinates", "statement": "get(coord) on an allocated tensor returns, for every in-bounds coordinate, the element that expose() lists at the coordinate's flat offset; get throws exactly when the mixed-radix offset of the coordinate is not below n_elems (in particular whenever the last entry is out of range, and always on an unallocated tensor) and never reads outside the buffer. An out-of-bound entry in another dimension aliases a different element instead of throwing (finding).", "quantifier": "all shapes, contents and coordinates", "why_tests_cant": "infinite domain; an out-of-bound coordinate can alias another element", "anchors": ["app/tenncor/src/tensor/tensor.ipp: tensor::get, tensor::expose"]}
{"id": "C13", "title": "Guessing a shape from a data length is sound and complete", "statement": "For n > 0, guess_shape(n) succeeds exactly when the allowed shape can be completed to a fully defined shape of n elements (rank-1 when undefined), and then returns such a completion, compatible with the allowed shape; is_compatible_with(data) accepts exactly the lengths guess_shape accepts for an unallocated tensor; loosely_guess_shape on a non-empty allowed shape returns a completion with at least n and less than n + known elements, or nothing exactly when the shape is fully defined and too small. Findings: n = 0 yields a shape with an unknown dimension; the two acceptance tests differ on allocated tensors; loosely_guess_shape on an undefined shape writes out of bounds.", "quantifier": "all allowed shapes and all data lengths", "why_tests_cant": "infinite domain with divisibility corner cases", "anchors": ["app/tenncor/src/tensor/tensor.ipp: guess_shape, loosely_guess_shape, is_compatible_with, is_loosely_compatible_with"]}
{"id": "C14", "title": "Tensor serialization round-trips", "statement": "For an allocated tensor whose allowed shape has the rank of and is compatible with the allocated shape, from_proto of what serialize wrote, into any live tensor, restores the same allocated shape, allowed shape and data; serialize writes a message exactly for allocated tensors. A tensor whose allowed rank differs aborts on its own message, and a build with NDEBUG writes through a null pointer (findings).", "quantifier": "all tensor shapes and contents", "why_tests_cant": "infinite domain of shapes, including allowed shapes whose rank differs from the allocated shape", "anchors": ["app/tenncor/src/tensor/tensor.ipp: serialize, from_proto"]}
{"id": "C15", "title": "Loading a malformed proto is safe", "statement": "from_proto with shapes of equal rank and data no longer than the allocated shape never touches memory outside its buffer; if it rejects the message because of the shapes, heap, buffer and allocated shape are as before; shapes of different rank abort. Findings: the rejected message still replaces the allowed shape, and a message with longer data overruns the buffer in every reachable state.", "quantifier": "all protos", "why_tests_cant": "adversarial inputs cannot be enumerated", "anchors": ["app/tenncor/src/tensor/tensor.ipp: from_proto"]}
{"id": "C16", "title": "transpose permutes axes", "statement": "transpose(a, {i,j}) with i,j below the rank (either order) yields the shape with dimensions i and j exchanged, with as many elements, whose element at each coordinate is the argument's element at the coordinate with entries i and j exchanged, whatever the result buffer held before; transposing twice is the identity. Exchanging the last dimension with an axis beyond the rank inserts size-one dimensions and keeps every element. Findings: exchanging another dimension with an axis beyond the rank scrambles elements, and two axes beyond the rank leave the result unwritten.", "quantifier": "all shapes, contents and axis pairs", "why_tests_cant": "infinite domain", "anchors": ["app/tenncor/src/graph/operations/transform.ipp: transpose"]}
{"id": "C17", "title": "extend repeats along an axis", "statement": "extend(a, index, multiplier) with index below the rank multiplies dimension index by multiplier, and the element at each coordinate is the argument's element at that coordinate with the index entry taken modulo the old dimension. Finding: with index beyond the rank the shape is extended but the forward pass reads outside the argument's shape.", "quantifier": "all shapes, axes below rank, multipliers above one", "why_tests_cant": "infinite domain", "anchors": ["app/tenncor/src/graph/operations/transform.ipp: extend"]}
{"id": "C18", "title": "Reduction along an axis folds exactly that axis", "statement": "compress/reduce_sum/reduce_max along an axis below the rank removes a first or last dimension, sets a middle dimension to one (a rank-1 argument gives [1]), and each output element is the left fold, in order, of exactly the argument elements that differ only in that axis, each argument element being used in exactly one fold; an axis beyond the rank copies the argument; without an axis it folds all elements into one.", "quantifier": "all shapes, contents, axes and collapse functions", "why_tests_cant": "infinite domain", "anchors": ["app/tenncor/src/graph/operations/transform.ipp: compress, reduce_max, reduce_sum, reduce_mean"]}
{"id": "C19", "title": "arg_max returns the position of a maximum", "statement": "arg_max along an axis returns, for each output coordinate, the first index below that dimension whose element is at least every other along the axis, and rejects an axis beyond the rank; without an axis element 0 is the flat index of the first maximum. Finding: without an axis the declared shape has as many elements as the argument has dimensions and only element 0 is written.", "quantifier": "all shapes and contents", "why_tests_cant": "infinite domain", "anchors": ["app/tenncor/src/graph/operations/transform.ipp: arg_compress, arg_max"]}
{"id": "C20", "title": "flip reverses selected axes and is an involution", "statement": "flip(a, dims) with every listed axis below the rank keeps the shape and the element at each coordinate is the argument's element at the coordinate mirrored in the listed axes; flipping twice is the identity. Finding: an axis not below the rank is not rejected and the forward pass writes outside the coordinate.", "quantifier": "all shapes, contents and axis lists", "why_tests_cant": "infinite domain", "anchors": ["app/tenncor/src/graph/operations/transform.ipp: flip"]}
{"id": "C21", "title": "matmul computes the matrix product for every transpose flag", "statement": "For two tensors (either optionally transposed on its first two axes) whose inner dimensions agree, matmul has shape [columns of b, rows of a, batch dimensions] and each element is the inner product of the corresponding row and column; dimensions beyond the second are batched pointwise and must agree up to trailing ones when both ranks exceed two; incompatible shapes throw; with equal batch sizes forward accesses only its buffers and leaves the arguments unchanged. Finding: when one rank is at most two the batch dimensions of the other are not compared, so [2,2,3] x [2,2] overruns the buffers and [2,2] x [2,2,3] silently ignores all but the first matrix.", "quantifier": "all shapes, contents and transpose flags", "why_tests_cant": "infinite domain; batched shapes have special cases", "anchors": ["app/tenncor/src/graph/operations/matmul.ipp: matmul, matmul_shaper, cubic_mul"]}
{"id": "C22", "title": "Strassen multiplication equals cubic multiplication", "statement": "The Strassen path pads both matrices to a common size (a number not above the threshold times a power of two, at least every dimension) and yields exactly the same result as the triple loop for every ring of elements, threshold, size and batch, using its scratch buffers without clobbering values still needed and freeing them all. (Floating point numbers are not a ring; there the two differ by rounding.)", "quantifier": "all matrix sizes, all contents over any ring", "why_tests_cant": "sizes at which the recursion is active are too many and too big; scratch-buffer reuse depends on depth", "anchors": ["app/tenncor/src/graph/operations/matmul.ipp: strassen, min_pad, cubic_mul"]}
{"id": "C23", "title": "Elementwise operations are pointwise, with scalar broadcasting", "statement": "A unary elementwise operation has its argument's shape ([1] for a one-element argument) and element i is the function of element i; a binary one on arguments of the same layout, or with a one-element argument, has the shape of the last argument with more than one element and element i is the function of the two elements i, a one-element argument being used for every i. Arguments of different layouts throw. The previous content of the result tensor never matters.", "quantifier": "all shapes, contents and functions", "why_tests_cant": "infinite domain", "anchors": ["app/tenncor/src/graph/operations/elementary.ipp: elementary_shaper, binary_elem, unary operators, binary operators", "app/tenncor/src/tensor/tensor_handler.ipp: transfer_func"]}
{"id": "C24", "title": "Axial binary operations broadcast along one axis", "statement": "add_axial_a/b and friends combine the element at each coordinate of the larger operand with the smaller operand's element at the coordinate with the axis removed, in the given order; a one-element operand combines with every element. Findings: along axis 0 of an operand whose first two dimensions are equal the read leaves the smaller operand; a one-element larger operand or an axis beyond the rank is undefined behaviour instead of an error.", "quantifier": "all shapes, contents and axes", "why_tests_cant": "infinite domain", "anchors": ["app/tenncor/src/graph/operations/elementary.ipp: binary_axial_shape, binary_axial"]}
{"id": "C25", "title": "Constant folding agrees with the graph's forward value", "statement": "The result of every elementwise operation stands for the operation's function on each element (in full size or as one element equal to all), whether the argument is a constant (folded at build time), a negation or any other node, for arguments whose divisors are non-zero, over any number type with the field laws the shortcuts use. Findings: unary plus is the absolute value on constants only; 0*a, a^0, a-a and a/a lose the shape; node/0 throws where constant/0 does not.", "quantifier": "all operations and all constants", "why_tests_cant": "every operation has two separately written code paths and real-valued inputs", "anchors": ["app/tenncor/src/graph/operations/elementary.ipp: operator +, -, abs, neg, sqrt, log, pow, clip_val, l2norm, clip_norm, division operators, add_helper, sub_helper, mul_helper, div_helper"]}
{"id": "C26", "title": "clip_val and clip_norm bound their result", "statement": "clip_val(a, lo, hi) lies between the bounds (in either order), equals a inside the interval and the nearer bound outside, for constants and nodes. clip_norm(a, cap) of a constant is a multiple of a with squared norm at most cap, equal to a when the squared norm is within cap, and a non-positive cap aborts. Findings: the squared norm is used for the norm; l2norm of a constant is the squared norm, of a node the absolute first element; clip_norm of a node always rescales by cap/|first element|.", "quantifier": "all contents and bounds", "why_tests_cant": "real-valued inputs", "anchors": ["app/tenncor/src/graph/operations/elementary.ipp: clip_val, l2norm, clip_norm"]}
{"id": "C27", "title": "Audience and dependency links mirror each other", "statement": "Over every history of construction (leaves, constants, connectors, generators, node pointers), pointer assignment and clearing, copy and move assignment, move construction and destruction, no operation throws, aborts or uses a destroyed object; after each, observer o is in subject s's audience under index i exactly when s is o's i-th dependency, and neither side mentions a destroyed object. A pointer assigned a node points to exactly that node; copies depend on what their source depends on; moves hand links over index by index. Holds for every iteration order of the library's hash tables. Finding: move-constructing a generator that has observers, and copy-assigning a generator from the one it alone observes, destroy the source midway and use it afterwards.", "quantifier": "all finite histories over any number of subjects and observers, all hash-table iteration orders", "why_tests_cant": "histories are unbounded and destruction order is arbitrary", "anchors": ["app/tenncor/src/graph/react/subject.cpp: attach, detach, steal_observers, notify, destructor", "app/tenncor/src/graph/react/iobserver.cpp: add_dependency, remove_dependency, replace_dependency, destructor"]}
{"id": "C28", "title": "Destroying nodes in any order terminates normally", "statement": "Destroying any observer, subject or pointer at any point of any history terminates normally, and so does destroying any list of objects in any order. Exactly these die: the object, everything that computes from something dying, and constants (unmanaged) and generators whose observers all die; node pointers to the dead become empty; every link between survivors stays and no other. Finding: an observer whose last dependency is null while an earlier one is set cannot be destroyed: its destructor throws and the program terminates.", "quantifier": "all histories, destruction orders and hash-table iteration orders", "why_tests_cant": "destruction order is arbitrary", "anchors": ["app/tenncor/src/graph/react/iobserver.cpp: remove_dependency, destructor", "app/tenncor/src/graph/connector/iconnector.ipp: graph_manager::suicide"]}
{"id": "C29", "title": "eval sees the latest leaf values", "statement": "After any history of graph construction, leaf assignments with notification, evaluations, shape queries, freezing and unfreezing in which no call threw, eval of a node that is not frozen returns exactly the value its expression has for the current leaf values (the null tensor when a leaf below it is uninitialised) and changes no leaf; this value is unique; no call on existing nodes ever runs into undefined behaviour or fails to return, also after exceptions; a frozen node keeps its value through assignments and evaluations. Finding: the claim fails after an assignment without notification, and for clones of operation nodes (a clone has depth 0, is recomputed before its arguments and keeps a value mixed from old and new ones); asking a frozen node for its shape recomputes it; building a node on a frozen and an unfrozen one freezes or unfreezes both depending on the argument order.", "quantifier": "all acyclic graphs, all argument functions and value types, all histories, every order in which equal-depth nodes and observers are processed", "why_tests_cant": "graphs and histories are unbounded, and hash-order dependent scheduling cannot be exercised exhaustively", "anchors": ["app/tenncor/src/graph/connector/iconnector.ipp: eval, freeze_status, graph_manager::add_update, graph_manager::update, graph_manager::consume, depth computation", "app/tenncor/src/graph/connector/immutable/base_immutable.ipp: update, get_shape, copy_helper", "app/tenncor/src/graph/connector/immutable/immutable.ipp: constructor, forward_pass"]}
{"id": "C30", "title": "Each node is computed at most once per call", "statement": "In histories without freezing (with clones, silent assignments and exceptions) no single call - construction, assignment, eval or shape query - computes a node twice; with freezing this still holds for every node with several arguments. After eval of a node nothing it is computed from and nothing computed from it is stale, and a second eval computes nothing and returns the same value. Finding: a unary node built on a frozen waiting node is computed twice by the first eval after unfreezing.", "quantifier": "all acyclic graphs, all histories, every notification and queue order", "why_tests_cant": "scheduling order depends on hash order; unbounded graphs", "anchors": ["app/tenncor/src/graph/connector/iconnector.ipp: eval, freeze_status, graph_manager::add_update, graph_manager::update, graph_manager::consume, depth computation", "app/tenncor/src/graph/connector/immutable/base_immutable.ipp: update, get_shape, copy_helper", "app/tenncor/src/graph/connector/immutable/immutable.ipp: constructor, forward_pass"]}
{"id": "C31", "title": "What a failed evaluation does to later ones", "statement": "Calling eval again after an exception throws at most as many times as there are nodes and then returns; and whatever failed before, once eval of a node has returned and every leaf below it has been reassigned with notification, the next eval that returns gives the current value. Finding: reassigning just the offending leaf is not enough: nodes taken from the queue by the failed evaluation are still marked as queued, ignore the notification, and eval silently returns the value from before the failure.", "quantifier": "all graphs without cloned operations, all histories with exceptions at any point, all orders", "why_tests_cant": "the failure point can be any node in any update order", "anchors": ["app/tenncor/src/graph/connector/iconnector.ipp: eval, freeze_status, graph_manager::add_update, graph_manager::update, graph_manager::consume, depth computation", "app/tenncor/src/graph/connector/immutable/base_immutable.ipp: update, get_shape, copy_helper", "app/tenncor/src/graph/connector/immutable/immutable.ipp: constructor, forward_pass"]}
{"id": "C32", "title": "An operation that returns an existing node returns one that computes the same", "statement": "After any history of creating leaves, applying operations and deleting nodes, an operation on existing nodes returns an existing node and changes no other node's value. The returned node's value is the operation's result for the current values of the arguments, for every assignment of leaf values: exactly, except that a + b and a * b may be the node of b + a or b * a (the same elements; axial sums and products then are the result for exchanged arguments), that -(-x) returns x (same elements and layout) and that transposing back returns the original (exactly the transposed tensor if the axes are below its rank). matmul with flags multiplies the transposed (or turned back) arguments. A second identical call adds no node. This holds if different scalar parameters are printed differently, comparisons with scalars are symmetric and are named uniquely without underscore, no label is changed, and clip_norm is not applied to a norm. Findings where these conditions fail: streams print 6 digits, so x + 1000001 is the node of x + 1000000; conditional(c, x, f) and conditional(x, c, f) share a node although f is not symmetric; add_axial and mul_axial ignore the order of their arguments; the shape of a sum depends on which order was built first; set_label can make another operation return the renamed node; clip_norm(l2norm(x), c) returns clip_norm(x, c); a comparison named 'lt_5' is taken for 'lt' with the scalar 5; as_constant never finds its nodes, because it looks for another label.", "quantifier": "all histories of leaves, operations and deletions; all parameters, arguments and leaf values; whichever of several matching nodes an unordered set yields first", "why_tests_cant": "collisions depend on the whole history of the graph and on label strings built from parameters", "anchors": ["app/tenncor/src/graph/operations/operation_utils.ipp: unary_parent_search, ordered_binary_parent_search, unordered_binary_parent_search", "app/tenncor/src/graph/inode.ipp: find_audience", "app/tenncor/src/graph/operations/elementary.ipp: all builders", "app/tenncor/src/graph/operations/transform.ipp: all builders", "app/tenncor/src/graph/operations/matmul.ipp: matmul"]}
{"id": "C33", "title": "Placeholder and variable assignment is read back", "statement": "Assigning a vector to a placeholder is accepted exactly when the placeholder's shape can be completed to one with that many elements; then evaluating it returns the vector, one notification is sent and no other node changes; any other size trips an assertion. Assigning a tensor object replaces shape and data. initialize() writes the initializer's values; assign, assign_add and assign_sub updaters set the variable to x, v+x and v-x elementwise with x read at call time (constants: at creation), also when x is the variable itself; wrong sizes assert. Clones evaluate equal and are independent. Findings: the tensor argument of placeholder assignment is emptied although passed as an lvalue; initialize(shape) throws on a variable that already has data of that shape; an updater on a never-initialised variable stores data but eval stays null; a constant longer than the variable is silently truncated; adding scalar constant 0 is accepted for any size but any other scalar asserts.", "quantifier": "all histories of leaf operations, all shapes and contents", "why_tests_cant": "infinite domain", "anchors": ["app/tenncor/src/graph/leaf/placeholder.ipp: operator=", "app/tenncor/src/graph/leaf/variable.ipp: initialize, assign, assign_add, assign_sub"]}
{"id": "C34", "title": "A constant holds the given data padded with zeros", "statement": "constant(raw, shape) with a fully defined shape holds raw cut or padded with zeros to the number of elements; with a partially known shape the unknown dimensions are completed so that all of raw fits with less than one slice wasted, padded with zeros; nothing outside raw is read; its value never changes afterwards in any history. operator== holds iff there is one element equal to the scalar. const_axis(dim, idx, v, shape) is v exactly at coordinates whose dim-th entry is idx and 0 elsewhere. Findings: an undefined shape writes outside a vector; a dimension the shape does not have reads outside the coordinate.", "quantifier": "all data lengths, shapes and later histories", "why_tests_cant": "infinite domain", "anchors": ["app/tenncor/src/graph/leaf/constant.ipp: constant constructors, const_axis, operator=="]}
{"id": "C35", "title": "Saving and loading nodes and models round-trips", "statement": "write_inorder under a label, then read_inorder under that label, in the same or another run, restores shape and data of every saved node in order; the keys of two (label, position) pairs coincide only if the pairs do; exactly the nodes without an entry are reported and, like all nodes outside the list, keep their value; saving leaves entries of other labels, positions and files alone and refuses an unparsable file. A model's save and initialize, and dq_net's for both its networks, restore all variables. Findings: the save is not atomic (a write cut short can leave a file that parses as empty, and loading then reports success); a node whose declared shape has another rank than its value is saved but makes loading abort; loading replaces the shape of, and even overwrites, whatever leaf it is given, constants included; an incomplete file makes a model re-initialise all variables, also those found.", "quantifier": "all histories of leaf nodes, all lists of nodes, all labels (also containing the separator), all previous file contents, and all outcomes of the write", "why_tests_cant": "labels are arbitrary strings, file contents and histories unbounded", "anchors": ["app/tenncor/src/memory/tensor_io.ipp: write_inorder, read_inorder", "app/rocnnet/src/compounds/icompound.cpp: initialize, save", "app/rocnnet/src/models/dq_net.cpp: initialize, save"]}
{"id": "C36", "title": "Gradients are the mathematical derivatives", "statement": "For every expression built elementwise from variables, placeholders and constants with +, -, *, / (node or scalar operands), neg, sin, cos, tan, csc, sec, cot, exp, log, sqrt and pow, on tensors of one shape or single elements, the gradient with respect to any variable can be built, evaluates, and its element at every position is the derivative of the expression's element there with respect to the variable's element there, at every point where the expression is differentiable; the expression's element does not depend on the variable's other elements; a variable that does not occur gives the constant 0. This holds with all constant folding and shortcuts of the builders and whatever nodes are shared. Findings: the gradient of +(-x) is +1; the gradient of clip_val is multiplied by the clipped value; the gradient of round is 1; derive with respect to an operation node returns the expression with that node replaced by the constant 1.", "quantifier": "all expression trees, all shapes, all leaf values in the domain of differentiability, all answers of the pointer comparison that never identify different nodes", "why_tests_cant": "unbounded expressions over reals; finite differences only sample", "anchors": ["app/tenncor/src/graph/operations/elementary.ipp: backward functions of each operation", "app/tenncor/src/graph/connector/immutable/base_immutable.ipp: derive, get_gradient"]}
{"id": "C37", "title": "Gradients through matrix products, sums and network layers are the derivatives of the sum", "statement": "The gradient of matmul(a, b, transposeA, transposeB) with respect to a variable that is either factor, for any flags, exists, has the variable's size, and each element is the derivative of the sum of the product's elements by that element of the variable. reduce_sum of a node has the sum of its elements as its value, and its gradient is the one of the node; for an elementwise expression it is the derivative of the sum by each element of a variable of the full shape. For a new mlp of any number and sizes of layers whose activations are compositions of sigmoid, tanh, the identity and other everywhere smooth functions, and any batch, the gradient of the squared error node that gd_net trains on, with respect to every weight and bias, exists, has the parameter's size, and each element is the derivative of the summed squared error by that element of the parameter. Findings: the gradient with respect to a one-element variable that is broadcast is not summed; reduce_max has gradient 1 for every element; the gradient of a bias added along an axis is 1 instead of the number of rows if no elementwise function follows; exp(x)/reduce_sum(exp(x)) (softmax) has a positive gradient although its sum is constant; z + matmul(z, v) with a product z treats the second use like the first and gives 2a instead of a(1+v); a bias that is itself a product makes the gradient throw; matmul(x, transpose(w)) gives the gradient of w in transposed order (the transposeB flag gives the right one).", "quantifier": "all matrix sizes, flags, leaf values, numbers and sizes of layers, batch sizes, smooth activations, contents of freshly allocated memory, either multiplication algorithm, every pointer comparison that never identifies different nodes and knows that a product or bias node is itself", "why_tests_cant": "unbounded networks and shapes over the reals; finite differences only sample", "anchors": ["app/tenncor/src/graph/operations/matmul.ipp: matmul backward and jacobian", "app/tenncor/src/graph/operations/transform.ipp: transpose, reduce_sum, reduce_max backward", "app/tenncor/src/graph/operations/elementary.ipp: add_axial_b, axial_set_jacobian", "app/tenncor/src/graph/connector/iconnector.ipp: jacobian lists", "app/rocnnet/src/models/gd_net.cpp: setup", "app/rocnnet/src/compounds/mlp.cpp: prop_up"]}
{"id": "C38", "title": "What the gradient descent updaters do to the variables", "statement": "calculate returns updaters for exactly the variables among the root's leaves that are not ignored; ignore_subtree, clear_ignore and cloning have the obvious effect on that set. Calling a vanilla updater (with notification) subtracts learning_rate times the current gradient from its variable, changes no other leaf, and the same holds for every later call. Calling an RMSprop updater sets its momentum to discount*1 + (1-discount)*gradient^2 and subtracts learning_rate*gradient/(sqrt(momentum)+epsilon) from the variable, at every call, whatever was assigned, built or evaluated between calls. Findings: the RMSprop momentum never accumulates (it is assigned without notification, so the node discount*momentum keeps the value for the initial momentum 1), contrary to the recurrence announced in the source; updaters called in sequence do not perform a simultaneous step (the second gradient is taken at the already updated point); momentum, adadelta and adagrad updaters always throw.", "quantifier": "all graphs, gradients, learning rates, discounts, initial values, numbers of calls and interleavings with other graph operations, all notification and queue orders", "why_tests_cant": "unbounded step counts over reals", "anchors": ["app/tenncor/src/utils/gd_utils.cpp: gd_updater::calculate, vgb_updater::process_update, rmspropupdater::process_update"]}
{"id": "C39", "title": "sigmoid, tanh and softmax have their defining ranges", "statement": "sigmoid of a tensor of any shape (constant, variable or computed node) has one element 1/(1+e^-v) per element v, strictly between 0 and 1, with sigmoid(-x)=1-sigmoid(x) and strictly increasing; tanh gives (e^v-e^-v)/(e^v+e^-v), strictly between -1 and 1; softmax gives e^v divided by the sum of e^w over the whole tensor, all positive, together summing to one, unchanged when one number is added to every element. Finding: softmax of a batch (shape [n,m], m>1) normalises over the whole batch, so the entries of each sample sum to less than one.", "quantifier": "all real tensors of every fully defined shape, given as constant, variable or computed node; all contents of freshly allocated memory", "why_tests_cant": "real-valued inputs", "anchors": ["app/tenncor/src/utils/futils.ipp: sigmoid, tanh, softmax"]}
{"id": "C40", "title": "The shared cache hands each consumer every latest update in order", "statement": "add_latest never fails. A consumer that has read nothing, or whose last value is still the latest of its key, receives exactly the latest value of every key updated after it, in order of last update, then waits. For a consumer whose last value was replaced: the read is undefined exactly when every value added up to the replacing one has the same key; otherwise it resumes at the current value the chain of replaced values leads to (one later if that is the oldest). As long as the key of the oldest value is only updated while the consumer has read nothing or holds a current value other than the oldest, no read fails and whenever nothing is left to read the last value received for every key is the latest added. A single consumer never sleeps while there is something to read. Findings: add, read, update the same key, read crashes; a consumer can miss a key's value for ever; a value can be delivered twice; of two sleeping consumers only one is woken.", "quantifier": "all interleavings of additions, reads and wake-ups with any number of consumers; all keys and values", "why_tests_cant": "interleavings are unbounded", "anchors": ["app/tenncor/src/thread/shareable_cache.ipp: add_latest, get_latest, push_back, unlink, grab_truth", "app/tenncor/include/thread/shareable_cache.hpp"]}
{"id": "C41", "title": "Replay memory is bounded and what it holds", "statement": "After any history of store, train and action calls the replay memory holds min(max_exp, number of kept experiences) entries, all of them stored earlier, where the kept experiences are those of every store_interval-th store call. While it is not full it holds exactly the kept ones in order; a newly kept experience is always present afterwards (max_exp>0). Finding: once full it does not evict the oldest entry: every further experience overwrites the first slot, so it displaces the previously stored one and all other early experiences stay for ever. store_interval 0 divides by zero.", "quantifier": "all histories of store, train and action calls, all parameters", "why_tests_cant": "unbounded histories", "anchors": ["app/rocnnet/src/models/dq_net.cpp: store"]}
{"id": "C42", "title": "Exploration probability anneals monotonically within its range", "statement": "The exploration probability is the initial value at step 0, always lies between final and initial value, moves monotonically towards the final value and equals it from the exploration period on. The k-th action explores exactly if the first random draw is below the value at step k; an exploring action is a whole number in [0, noutput), otherwise it is the network's argmax. random_sample returns mini_batch_size stored experiences from pairwise different positions, and every such choice is possible. Finding: the step counter is increased before use, so even the first action explores with a probability below the initial one.", "quantifier": "all step counts, real parameters, random draws and shuffle outcomes", "why_tests_cant": "unbounded steps over reals", "anchors": ["app/rocnnet/src/models/dq_net.cpp: linear_annealing, random_sample, action"]}
{"id": "C43", "title": "The target network tracks the source network as a convex combination", "statement": "Each target update replaces every target parameter t by (1-alpha)*t+alpha*s for the source parameter s at the same place and keeps shapes; with 0<=alpha<=1 the result lies between them; n updates with a fixed source leave the distance (1-alpha)^n*(t-s), which for 0<alpha<2 gets and stays below any bound. A training step applies this with the source network after its own update.", "quantifier": "all lists of parameter tensors, update counts and rates", "why_tests_cant": "unbounded update counts over reals", "anchors": ["app/rocnnet/src/models/dq_net.cpp: variable_setup, train", "app/tenncor/src/graph/leaf/variable.ipp: assign_sub"]}
{"id": "C44", "title": "Fully connected networks have the documented shape and value", "statement": "A fully connected layer given its inputs (matrices with n_in columns and one row per sample) yields the matrix whose entry for output x and sample y is, summed over the inputs, the dot product of the sample's row with the weights of x plus the bias of x; get_variables lists its weights and biases in order, of shapes [n_out, n_in] and [n_out]. An mlp composes its layers and activation functions in the given order, so its output is a matrix of [size of the last layer, batch] with the composed value, for any list of layers and any activation function that acts pointwise (sigmoid, tanh, identity do); prop_up on an input of the wrong width aborts; get_noutput is the size of the last layer. rbm prop_up/prop_down compute the sigmoid of input*weights+hidden bias, and of hidden*transposed weights+visible bias. Findings: an mlp without layers never sets its output size; a one-element result has shape [1], not [1,1].", "quantifier": "all numbers and sizes of inputs and layers, all batch sizes, parameter values and contents of freshly allocated memory; matrix multiplication by either algorithm (ring arithmetic when the fast one is used)", "why_tests_cant": "unbounded layer lists and sizes", "anchors": ["app/rocnnet/src/layers/fc_layer.cpp: constructor, operator(), get_variables", "app/rocnnet/src/compounds/mlp.cpp: constructor, prop_up, get_variables", "app/rocnnet/src/models/rbm.cpp: constructor, prop_up, prop_down"]}
{"id": "C45", "title": "Copying a model copies all of it", "statement": "A clone of a layer or mlp has copies of all parameters, in the same order, in newly created variables (only labels differ), leaves everything else unchanged and computes the same output for every input; since its output depends only on its own variables, training either leaves the other unchanged. Assigning an mlp deletes the target's old parameters, gives it copies of the source's and the same output; self-assignment changes nothing; moving transfers the parameters, as does move assignment, which deletes the target's old ones and leaves the source without any; a moved rbm has new parameters with what the old ones held. A copied dq_net has the original's settings, counters and the values of both networks and chooses the same actions; a copied gd_net over an mlp computes the same output. Findings: a cloned or moved rbm never has its hidden size set, and after a move the old rbm still returns its variables, now without a tensor; assigning an rbm to another, by copy or by move, does nothing and to itself follows null pointers; a cloned, assigned, moved-to or move-assigned db_net, whose own parameters are all deleted, has no output layer, so prop_up and get_variables follow a null pointer; a copied dq_net has an empty replay memory (an assigned one keeps the target's), so train does nothing where the original learns.", "quantifier": "all layers, networks, parameter values, stores of variables and inputs; all dq_net states", "why_tests_cant": "unbounded models", "anchors": ["app/rocnnet/src/layers/fc_layer.cpp: clone_impl, copy_helper, operator=, move_helper", "app/rocnnet/src/compounds/mlp.cpp: copy_helper, operator= (copy and move), move_helper, clean_up", "app/rocnnet/src/models/rbm.cpp: operator= (copy and move), copy_helper, move_helper, clean_up", "app/rocnnet/src/models/db_net.cpp: operator= (copy and move), copy_helper, move_helper, clean_up", "app/rocnnet/src/models/gd_net.cpp: setup, copy_helper", "app/rocnnet/src/models/dq_net.cpp: copy_helper, operator="]}
{"id": "C46", "title": "Type registry: first registration wins", "statement": "alloc_builder::registertype returns true exactly for an identifier that is neither the default allocator's nor registered before; get returns the instance of the class registered first under the identifier (null if none) and no later registration changes it; different identifiers have different instances; check_registry<A> holds exactly if that class is A or derives from A.", "quantifier": "all registration histories, identifiers and class hierarchies", "why_tests_cant": "unbounded histories", "anchors": ["app/tenncor/include/memory/alloc_builder.hpp: registertype, check_registry", "app/tenncor/src/memory/alloc_builder.cpp: get, constructor"]}
{"id": "C47", "title": "The edge recorder mirrors the live graph", "statement": "After any history of edge captures, edge releases and node releases the recorder lists, once each, exactly the edges captured by a recordable observer and since then neither released nor with their subject destroyed; driven by subject's attach, detach and destructor it lists exactly the audiences' entries with recordable observer. The remote recorder sends a new subscriber one message per edge ever captured or released, ADD iff the last of those events was a capture. Findings: destroying a node leaves the edges where it is the observer; the remote recorder ignores node destruction and recordability.", "quantifier": "all event histories, all attach/detach/destroy histories", "why_tests_cant": "unbounded histories", "anchors": ["app/tenncor/src/edgeinfo/adjlist_record.cpp: node_release, edge_capture, edge_release", "app/tenncor/src/edgeinfo/grpc_vis_record.cpp: edge_capture, edge_release", "app/tenncor/src/graph/react/subject.cpp: attach, detach, ~subject"]}
{"id": "C48", "title": "2d cross correlation: declared shape and what it reads", "statement": "cross_corr2d(a, filter) declares image - filter - 1 positions along each correlated axis (mod 2^64). Findings: this is two fewer than the positions of the filter inside the image, wraps around for a filter as large as the image, the values never depend on the filter's data (the image is used as its own filter), and with the axes in increasing order (the default) evaluating it reads outside the image for every image and filter that leave an output position; in decreasing order it can read elements of other rows instead.", "quantifier": "all image and filter sizes and contents", "why_tests_cant": "infinite domain", "anchors": ["app/tenncor/src/graph/operations/transform.ipp: cross_corr2d, conv2d"]}
{"id": "C49", "title": "Tensors are isolated from each other", "statement": "A copy of a tensor has the same shapes and data in its own buffer; and any operation that is not called on (or moves from) a tensor leaves that tensor's shapes, buffer address and data unchanged.", "quantifier": "all histories of tensor operations, all tensors", "why_tests_cant": "sharing of a buffer only shows after some later operation in some history", "anchors": ["app/tenncor/src/tensor/tensor.ipp: tensor::copy_helper, tensor::move_helper, tensor::set_shape, tensor::allocate"]}
{"id": "C50", "title": "When train performs a step and what it feeds the network", "statement": "After any history the number of training steps equals the number of counted train calls divided by train_interval, rounded up. A train call that is not due only counts; one that is due with fewer than mini_batch_size experiences changes nothing and is not counted; otherwise one step is made on mini_batch_size different memory entries: their observations concatenated, one-hot action masks, rewards, next observations (zeros with mask 0 for a terminal experience, mask 1 otherwise). Finding: a sampled action index not below noutput writes out of bounds.", "quantifier": "all histories, all shuffles, all experiences", "why_tests_cant": "unbounded histories; every combination of sampled experiences and interval parameters", "anchors": ["app/rocnnet/src/models/dq_net.cpp: train, random_sample"]}
{"id": "C51", "title": "Training a gd_net is one simultaneous step of gradient descent", "statement": "gd_net::train(in, out) assigns the two placeholders, freezes the error's graph, calls every updater and unfreezes. Whatever was done with the graph before (building, notified assignments, evaluation, freezing and unfreezing): if every updater belongs to a different variable, its node shares an operation with the error, and train returns, then every variable is changed by the value its own node has for the new inputs and the variables before the call - all updates use the same point, in whatever order the updaters are called -, no other leaf but the placeholders changes and the error is not left frozen. For a gd_net around a new mlp of any sizes with smooth activation functions (identity, sigmoid, tanh, elementwise e^x, sin, cos, negation and compositions) and a batch of any size, with exact real arithmetic, this is gradient descent: every parameter keeps its shape and each of its elements decreases by exactly the learning rate times the partial derivative of the summed squared error at the given batch and the parameters before the call; other variables are left alone. Calling the net returns the value of its output expression for the given input and the current parameters and changes nothing but the test placeholder. Finding: an updater whose node shares no operation with the error (the gradient of a loss linear in each variable) is not protected by the freeze and uses variables already updated.", "quantifier": "all histories of a graph, all orders of notification, of equally deep nodes and of updaters, all values; all layer sizes and depths, batch sizes, positive learning rates, parameters, inputs and expected outputs", "why_tests_cant": "That no update sees another one's effect depends on the freezing of the whole graph and on every order of the updaters and of notifications; that the step equals the true gradient is a statement about derivatives at every point and every net.", "anchors": ["app/rocnnet/src/models/gd_net.cpp: gd_net::train, gd_net::operator (), gd_net::setup", "app/tenncor/include/utils/gd_utils.hpp: vgb_updater", "app/tenncor/src/graph/connector/iconnector.ipp: freeze_status", "app/tenncor/include/graph/leaf/variable.hpp: assign_sub"]}
{"id": "C52", "title": "Stopping a thread stops that thread, and no thread outlives its object", "statement": "In every interleaving of one owner of stoppable_thread objects and any number of workers: stop_throw ends the worker that calls it exactly when stop was called for it before; stop_wait lets the worker go on exactly when stop was called for it before it looks at its flag, whatever woke it. A thread belongs to at most one object; a thread that was never detached has ended once its object was joined or destroyed; moving hands the thread over and leaves both objects able to stop it. If the worker is anywhere but between its look at the flag and its falling asleep when stop notifies it, it never sleeps in stop_wait again, and the stop of a sleeping worker completes and wakes it. The graph recorder's server thread has ended before the recorder's caches are destroyed. Findings: stop can be lost (flag set and notified between the worker's look and its sleep), after which join, the destructor and the recorder's destructor wait for ever; stop can notify a flag that is already destroyed (the worker saw the flag and returned in between); stop on a default constructed object or one whose thread has returned is undefined - exactly these cases are; join and the destructor do not stop a waiting thread; assigning to an object with a thread ends the program.", "quantifier": "all executions: any number of objects and workers, any calls by the owner, any behaviour of the workers, any interleaving and any spurious wake-ups", "why_tests_cant": "The failures need particular interleavings of a few instructions; the guarantees range over every schedule.", "anchors": ["app/tenncor/include/thread/stoppable_thread.hpp: stoppable_thread", "app/tenncor/src/thread/stoppable_thread.cpp: stop, join, detach, move, destructor", "app/tenncor/src/thread/stop_flag.cpp: stop_flag::set, stop_throw, stop_wait", "app/tenncor/src/edgeinfo/grpc_vis_record.cpp: rpc_record::rpc_record, rpc_record::~rpc_record"]}
{"id": "C53", "title": "reduce_mean is the arithmetic mean", "statement": "reduce_mean(a) evaluates, whatever the leaves hold, to a single number: the sum of a's elements in order divided by their number. reduce_mean(a, i), for an axis i of a, evaluates to the sums along axis i, each divided by the size of that axis, in the shape reduce_sum gives. Building either changes neither the structure nor the value of any existing node, whether its parts (the sum, the size, the division) are made anew or reused. Over the real numbers the result is the arithmetic mean. The shape data a shape node fills in is, row by row, the requested dimensions of each argument, the rest of the row being one. Findings: an axis not below the rank, for which reduce_sum returns its argument unchanged, makes reduce_mean read a dimension that is not there (undefined behaviour); a result with a single element gets shape [1], whatever its rank should be; dimension rows longer than the output's rows are written over the next row, or beyond the end of the data.", "quantifier": "all histories of node construction before, all graphs so reached, all axes, all element types and all leaf data", "why_tests_cant": "The nodes may be reused from any earlier part of the graph and the data may be of any shape; a test fixes one graph and one tensor.", "anchors": ["app/tenncor/src/operations/transform.ipp: reduce_mean", "app/tenncor/src/graph/connector/immutable/shape_dep.ipp: shape_dep", "app/tenncor/src/tensor/tensor_handler.ipp: shape_extracter"]}
{"id": "C54", "title": "A generator keeps its data until its dependency takes another layout", "statement": "A generator filled by an initializer keeps its shape and elements whatever happens to its dependency or to other generators, until an update finds the dependency good with a fully defined shape of another layout (or the generator holding nothing yet): then it takes that shape, its elements are those of one new run of its initializer, and its observers are notified - and in no other case. clone copies shape, elements, initializer and dependency into an independent generator; move and move assignment hand them over; assignment replaces what was held. Every history of these calls does exactly this, every tensor and initializer belongs to exactly one living generator and is released exactly once, and nothing is left when all generators are gone. Findings: a generator's shape need not be its dependency's, even right after an update (a different rank with the same layout and a dependency that went bad are ignored); a moved-from generator reports good status although it has no data (reading it fails an assertion), and updating it is undefined behaviour.", "quantifier": "all histories of creation, dependency changes, updates, clones, moves, assignments and deletions; all initializers; all shapes and element types", "why_tests_cant": "Stability and ownership range over every sequence of updates and copies and every initializer; a test shows one sequence and cannot show that nothing else changes the data.", "anchors": ["app/tenncor/src/graph/connector/immutable/generator.ipp: update, copy_helper, move_helper, clean_up, operator =, clone, move", "app/tenncor/include/graph/connector/immutable/generator.hpp: generator"]}
{"id": "C55", "title": "Subscription streams and shutdown of the visualisation server", "statement": "SubscribeNode/SubscribeEdge stream, to every client, messages of its own kind only, exactly those its consumer of the shared cache reads (so C40 applies to every stream, with any number of streams of either kind, subscriptions and shutdown interleaved). A stream returns only after EndSubscription for its id or the server's shutdown removed it. After its id is removed and not entered again a stream sends at most one more message (none unless it was already past its test of the subscription) and takes at most three more steps; it can always take its next step unless it is asleep waiting for a message. When spawn_server has returned, every stream has returned and nothing is sent any more; once Shutdown is called with no id subscribed and no handler reading, asleep or not yet entered, the server returns after boundedly many steps. Findings: EndSubscription does not wake a sleeping stream, which stays open until another message of its kind is added; if the client subscribes again with the same id before that, the old stream is revived and both send; a stream asleep when the shutdown's two notifications are over (one subscriber that tested just before the clear, or a second sleeper on the same cache, since only one is notified) keeps spawn_server from returning; a client subscribing between clear_subscriptions and Shutdown blocks it until that client ends its subscription.", "quantifier": "every interleaving of any number of subscribing and unsubscribing clients, message additions, handler steps, wake-ups (including spurious ones) and the shutdown sequence", "why_tests_cant": "The failures depend on the instant at which a handler tests its subscription or goes to sleep relative to the shutdown thread; tests exercise a handful of schedules and cannot show that a stream never outlives its subscription or that shutdown completes.", "anchors": ["app/tenncor/src/edgeinfo/grpc_vis/gui_notifier.cpp: gui_notifier::SubscribeNode, SubscribeEdge, EndSubscription, clear_subscriptions, spawn_server", "app/tenncor/src/thread/shareable_cache.ipp: get_latest, add_latest, escape_wait"]}
{"id": "C56", "title": "The CSV file of the recorded graph can be read back", "statement": "csv_record::to_csv writes one line per recorded edge whose subject is a node of the type and whose observer is in the considered graph (if one is given); a plain CSV reader gets back exactly these edges: observer and subject number with label and shape, and the argument index. A node has the same number in all lines, different nodes have different numbers, and the numbers follow the order of first mention. After any history of attaching, detaching and destroying subjects, in any iteration order of the recorder, there is exactly one line for each attached (observer, subject, index) with a recordable observer. With setVerbose(true) the cells are the unique names instead of numbers. Writing is undefined exactly if an observer of a node of the type is not a connector of the type. Findings: a comma (or newline) in a label makes the line unreadable; a node observing itself is given two numbers.", "quantifier": "every recorded graph, iteration order, choice of labels without separators, shapes, considered graph and display flags; every history of the subjects for the composed statement", "why_tests_cant": "The numbering depends on the order in which nodes are first mentioned and on the iteration order of hash containers; a test checks the text for a few graphs only.", "anchors": ["app/tenncor/include/edgeinfo/csv_record.hpp: csv_record::to_csv", "app/tenncor/src/edgeinfo/adjlist_record.cpp", "app/tenncor/src/tensor/tensorshape.cpp: print_shape", "app/tenncor/src/graph/inode.ipp: get_name"]}
{"id": "C57", "title": "Energy and costs of a restricted Boltzmann machine", "statement": "For an rbm as constructed, whatever its parameters hold, and every batch of visible vectors: free_energy gives, per vector, minus the sum of ln(1 + exp(v.W_j + hbias_j)) over the hidden units minus v.vbias, that is, exp(-free_energy) is the sum of exp(-joint energy) over all hidden configurations; the training cost is the mean energy of the input minus that of the chain's end; the reported reconstruction cost is the mean log-likelihood of the input under the visible distribution; the reported pseudo-likelihood is n times the mean of ln logistic(energy(x') - energy(x)), x the rounded input. Findings: x' is not x with unit 0 flipped unless all other units are zero, because one_i - x negates them; the reconstruction cost is not negated, so a better reconstruction has a higher cost.", "quantifier": "all numbers of visible and hidden units, batch sizes, parameter values, nodes holding a batch, chain ends and visible distributions; real arithmetic", "why_tests_cant": "a test fixes sizes, weights and samples; that the graph built from broadcast shapes [b] and [1, b] computes this function must hold for every size and every weight, and the wrong pseudo-likelihood is right for sparse samples", "anchors": ["app/rocnnet/src/models/rbm.cpp: rbm::free_energy, rbm::train, rbm::get_pseudo_likelihood_cost, rbm::get_reconstruction_cost", "app/tenncor/src/graph/operations/transform.ipp: reduce_sum, reduce_mean", "app/tenncor/src/graph/leaf/constant.ipp: const_axis"]}
{"id": "C58", "title": "Convolution layer: parameters, copies, moves and calls", "statement": "A new conv_layer has an uninitialized weight of shape [height, width, inputs, outputs] drawn from +-1/sqrt(height*width*inputs) and a zero bias of shape [outputs]. clone and copy assignment put copies of both (same shape, initializer, data; labelled with the receiving layer's scope) into new variables and leave the source alone; assignment deletes the target's old variables and keeps its scope; self-assignment does nothing. move and move assignment put the contents into new variables and leave two emptied ones in the source, so that deleting both layers deletes nothing twice. Findings: the value of a call never depends on the weights, and no call has a value: it reads outside the input, or throws when the input is exactly one larger than the filter.", "quantifier": "all filter sizes, channel numbers, scopes, memory contents, inputs larger than the filter, weights and biases", "why_tests_cant": "universal over states of memory and inputs; a test of one call sees only one out-of-bounds read that may go unnoticed", "anchors": ["app/rocnnet/src/layers/conv_layer.cpp: conv_layer, clone, move, operator =, operator ()", "app/tenncor/src/graph/operations/transform.ipp: conv2d, cross_corr2d, flip", "app/tenncor/src/graph/leaf/variable.ipp: clone, move"]}
{"id": "C59", "title": "Training a restricted Boltzmann machine follows the gradient of its cost", "statement": "For the cost that rbm.train builds (mean free energy of the input batch minus mean free energy of the chain's end), derive with respect to the weight, the hidden bias and the visible bias builds nodes that evaluate, and each element is the partial derivative of the cost by the variable's element at the same place (through a sum along an axis, its grouping note and the axial product). These gradients are contrastive divergence: differences of batch means of visible value times hidden probability, of hidden probability, and of visible value. The update nodes, subtracted, change each element by minus the learning rate times that partial derivative. Gradient construction with axes agrees with that of C35-C37 on expressions without sums along an axis. Findings: outside of this cost the construction is wrong: the gradient of a sum along an axis below two operations throws when evaluated, and it reads outside the argument when the remaining dimension equals the summed one.", "quantifier": "all sizes of visible and hidden layer, all batch sizes, all weights, biases, inputs and chain ends (distinct nodes without the machine's variables), all learning rates above 0", "why_tests_cant": "derivatives quantify over limits; values range over all reals and all sizes", "anchors": ["app/rocnnet/src/models/rbm.cpp: train, free_energy", "app/tenncor/src/graph/operations/transform.ipp: reduce_sum, reduce_mean, compress", "app/tenncor/src/graph/operations/elementary.ipp: binary_axial, binary_axial_shape, mul_axial_b, axial_jacobian", "app/tenncor/src/graph/connector/immutable/base_immutable.ipp: derive"]}
{"id": "C60", "title": "Sampling and the Gibbs chain of a restricted Boltzmann machine", "statement": "prop_up returns the conditional probability of each hidden unit given the visible units under the machine's joint distribution (proportional to exp of minus the joint energy), prop_down that of each visible unit given the hidden ones, and units of one layer are independent given the other, so that sampling them one by one is sampling the layer. binomial_sample(n, p) makes one draw per element, of shape as p, and aborts if an element is outside [0, 1]. The chain that rbm.train builds alternates such draws for n_cont_div rounds, starting from the input or the persistent variable; its end is a 0/1 batch of the input's layout, no variable changes, and train then subtracts from every parameter the learning rate times the partial derivative of the cost with the chain's end held fixed. Findings: binomial_sample of a constant writes to an empty vector, with nodes for both n and p it reads an argument that is not there, and train with n_cont_div = 0 dereferences null.", "quantifier": "all layer and batch sizes, parameters, inputs, numbers of rounds, persistent states, learning rates and all outcomes of the random draws", "why_tests_cant": "random draws and all sizes; probabilities are sums over 2^n configurations", "anchors": ["app/rocnnet/src/models/rbm.cpp: prop_up, prop_down, reconstruct_hidden, train", "app/tenncor/src/graph/operations/elementary.ipp: binomial_sample, as_constant", "app/tenncor/src/graph/connector/immutable/const_immutable.ipp"]}
{"id": "C61", "title": "Deep belief networks: values, pretraining and fine tuning", "statement": "db_net.prop_up of a batch gives the shares (softmax) of the last layer's sums over logistic hidden layers; inputs of the wrong size are refused, and so is a network without sizes. The i-th pretraining function trains the i-th machine on exactly what the machines below compute from the input, subtracting from each of its parameters the learning rate times the partial derivative of that machine's cost; the last layer is left alone. build_finetune_functions returns the mean squared difference to the labels as error and one step for each parameter of the network; the step of an element along which output sum i moves at rate D_i subtracts learning_rate * sum_i (share_i - 1)/m * D_i. Findings: softmax sums over the whole batch, so the outputs of one sample sum up to less than 1 and depend on the other samples; the fine tuning cost does not use the labels and is least when all outputs are equal; the step is not the cost's slope, which is sum_i (share_i - 1/m) * D_i, so that each step raises each bias of the last layer whatever the data, even at the minimum of the cost.", "quantifier": "all numbers of inputs, lists of layer sizes, batch sizes, parameters, inputs, labels, learning rates, numbers of rounds and outcomes of the random draws", "why_tests_cant": "ranges over all network depths and sizes, real values and random draws; derivatives are limits", "anchors": ["app/rocnnet/src/models/db_net.cpp: prop_up, pretraining_functions, build_finetune_functions, get_variables", "app/rocnnet/src/models/rbm.cpp: train", "app/tenncor/src/utils/futils.ipp: softmax", "app/tenncor/src/graph/operations/elementary.ipp: reduce_sum, reduce_mean, log, pow"]}
{"id": "C62", "title": "Calling the training functions of Boltzmann machines and belief networks", "statement": "The function returned by rbm.train, and the one returned by db_net.build_finetune_functions, freezes the cost, applies all updates and unfreezes it. Whatever was done with the graph before (building, assigning with notification, evaluating, freezing), and in whatever order notifications and pending updates are processed: if the call returns, all parameters have made their steps at once, each computed from the parameters, inputs and samples before the call (each element down by learning rate times the cost's slope for a machine, by the step of C61 for a network); a persistent chain variable has the values its chain node had before the call and keeps its shape; no other leaf has changed and the cost is not frozen. For every machine or network and all values there is a graph on which the calls return. Finding: the window protects only nodes in one graph with the cost; a function using another node sees what the functions before it have written.", "quantifier": "all histories of a graph, all orders of notification and of pending updates, all network sizes, parameters, inputs, samples, labels and learning rates", "why_tests_cant": "ranges over all histories and all orders in which unordered maps and priority queues list their elements, and over real values", "anchors": ["app/rocnnet/src/models/rbm.cpp: train", "app/rocnnet/src/models/db_net.cpp: build_finetune_functions", "app/tenncor/src/graph/leaf/variable.ipp: assign, assign_sub", "app/tenncor/src/graph/connector/iconnector.ipp: freeze_status, eval"]}
{"id": "C63", "title": "Names, shapes and initial distributions of the parameters of layers and networks", "statement": "Constructing an fc_layer, rbm, mlp or db_net creates exactly its parameters and changes nothing else; get_variables lists them in order of creation. For every input i of an fc_layer: scope_weights_i of shape [outputs, inputs], uniform between +-1/sqrt(inputs), and scope_bias_i of shape [outputs], zero. For an rbm: scope_weights of shape [hidden, inputs], uniform between +-4*sqrt(6/(hidden+inputs)), scope_hidden_bias and scope_visible_bias, zero. An mlp calls its layers scope:hidden_0, scope:hidden_1, ..., each taking the outputs of the one before, a db_net its machines scope:rbm_0, ... (all sizes but the last) and the last layer scope:logres; a db_net without sizes is refused. No two parameters of one network have the same name. Copies of an fc_layer or mlp have new variables equal to the old ones but for names built from the copy's scope (old scope + _cpy if none is given). Findings: a copied mlp names its layers scope:hiddens0, ..., unlike the constructor; a copied rbm keeps the original's names, whatever scope is given.", "quantifier": "all lists of layer sizes, scopes, activation functions and variables created before", "why_tests_cant": "ranges over all numbers and sizes of layers and all scopes; distinctness of names needs injectivity of decimal numerals", "anchors": ["app/rocnnet/src/layers/fc_layer.cpp: fc_layer, copy_helper", "app/rocnnet/src/models/rbm.cpp: rbm, copy_helper", "app/rocnnet/src/compounds/mlp.cpp: mlp, copy_helper", "app/rocnnet/src/models/db_net.cpp: db_net"]}
{"id": "C64", "title": "Gradients through means, extend, flip, sums along an axis and l2norm", "statement": "For an elementwise expression e that depends on a variable of its full shape: the gradients of reduce_sum(e, axis), for every axis, and of reduce_mean(e), over all elements or along any axis of e, exist, have the layout of the variable, and their elements are the derivatives of the sum of the node's elements by the variable's elements. Findings: the gradient of extend(e, index, m) is that of e: the derivatives are m times its elements (m = 0 gives the constant 0). The gradient of flip(e, dims) has the derivatives in mirrored positions (those of the node, not those of the variable); of flip(x, dims) for the variable x itself it is a flip of one element, and evaluating it is undefined behaviour as soon as dims contains an axis other than 0. The gradient of l2norm(x) is the constant 1 for every x, whatever the derivatives of its value are.", "quantifier": "all elementwise expressions, shapes of any rank, variables, axes, lists of axes, multipliers and points at which the expression is differentiable", "why_tests_cant": "ranges over all expressions, shapes and real values; being a derivative is a limit", "anchors": ["app/tenncor/src/graph/operations/transform.ipp: extend, flip, compress, reduce_sum, reduce_mean", "app/tenncor/src/graph/operations/elementary.ipp: identity, l2norm, op_axial_b"]}
{"id": "C65", "title": "Training with RMSprop", "statement": "One training call with RMSprop updaters, whatever was built, evaluated and trained before: the placeholders get the batch; every momentum becomes discount * 1 + (1 - discount) * gradient^2 and every variable is decreased by rate * gradient / (sqrt(momentum) + epsilon), where all gradients are those at the parameters before the call (no updater sees the effect of another one) and no other variable changes; the error can be evaluated afterwards. For a new mlp of any sizes with the squared error, the gradients are the derivatives of the summed squared error by the parameter's elements. Finding: the momentum is recomputed from its initial value at every call, so gradients of earlier calls have no influence (see C38).", "quantifier": "all histories of graph operations, numbers of updaters, earlier training calls, orders of the updaters; all layer sizes, batch sizes, inputs, parameters, rates, discounts and epsilons", "why_tests_cant": "ranges over all histories and real values; being a derivative is a limit", "anchors": ["app/tenncor/src/utils/gd_utils.cpp: rmspropupdater::process_update", "app/rocnnet/src/models/gd_net.cpp: gd_net::train", "app/tenncor/src/graph/leaf/variable.ipp: assign, assign_sub"]}
{"id": "C66", "title": "Gradients through added sums along axes", "statement": "For expressions a and b of one shape that depend differentiably on a variable: the gradient of reduce_sum(a, i) + reduce_sum(b, j) with i <> j, where both sums have the same shape, has the layout of the variable and consists of the derivatives of the sum of the elements. With i = j the same holds if the gradient of b has a single element, or if both gradients have all elements and axis i has extent one or is the only one. Findings: with i = j the gradients carry the grouping mark that makes operator+ take its second argument for a tensor without axis i, although both have it: if both gradients have all elements and axis i has extent > 1 evaluation throws (e.g. sum(sin x, 0) + sum(exp x, 0) for a 2x2 x); if only the gradient of b has all elements evaluation reads beyond the single element (e.g. sum(x, 0) + sum(sin x, 0)); if i is not below the rank it writes outside a vector.", "quantifier": "all shapes, axes, variables, values and elementwise expressions a, b regular at the values", "why_tests_cant": "ranges over all shapes, axes, expressions and real values; being a derivative is a limit", "anchors": ["app/tenncor/src/graph/operations/transform.ipp: reduce_sum", "app/tenncor/src/graph/operations/elementary.ipp: operator +, add_axial_b, binary_axial_shape, binary_axial"]}
{"id": "C67", "title": "Gradients through the axial operations", "statement": "Operations that spread a small tensor along axis i of a large one, differentiated with respect to a variable in the large argument (an expression of elementwise operations): for + and -, in either order, the gradient has the layout of the variable and consists of the derivatives of the sum of the elements. For *, in either order, and for small / large (where the large one is nonzero) the same holds if the gradient of the large argument is not a constant node and has all elements. Findings: if that gradient is a number v (as for the variable itself, v = 1), derive of the product gives v times the small tensor in the small layout, which is no gradient; for large / small the gradient is an expression whose evaluation throws, because the square of the divisor is not spread along the axis.", "quantifier": "all shapes of rank above one, all axes along which spreading works, all variables, values, elementwise expressions regular at the values, and all small tensors computed without the variable", "why_tests_cant": "ranges over all shapes, axes, expressions and real values; being a derivative is a limit", "anchors": ["app/tenncor/src/graph/operations/elementary.ipp: add_axial_a, add_axial_b, sub_axial_a, sub_axial_b, mul_axial_a, mul_axial_b, div_axial_a, div_axial_b, binary_axial"]}
{"id": "C68", "title": "Gradients through the axial operations, small argument", "statement": "Operations that spread a small tensor along axis i of a large one, differentiated with respect to a variable in the small argument (an expression of elementwise operations whose gradient has all elements and is no constant node, or is a number other than 0 and -1): for the product, in either order, and for small / large (the large one nonzero everywhere) the gradient has the layout of the variable and consists of the derivatives of the sum of the elements: the terms summed along the axis. Findings: for + and - of the variable itself derive gives the single number 1 (-1 for large - small), which is no gradient: the gradient is summed along the axis before it is spread, so the number of copies is lost; for large / small the gradient is an expression whose evaluation throws, because the square of the divisor is not spread along the axis.", "quantifier": "all shapes of rank above one, all axes along which spreading works, all variables, values, elementwise expressions regular at the values, and all large tensors computed without the variable", "why_tests_cant": "ranges over all shapes, axes, expressions and real values; being a derivative is a limit", "anchors": ["app/tenncor/src/graph/operations/elementary.ipp: axial_set_jacobian, add_axial_a, add_axial_b, sub_axial_a, sub_axial_b, mul_axial_a, mul_axial_b, div_axial_a, div_axial_b"]}
{"id": "C69", "title": "Gradients of fit, clip_norm, comparisons, arg_max and cross_corr2d", "statement": "Deriving a node made by arg_max or cross_corr2d with respect to a variable in its arguments throws; with respect to a variable that does not occur, the gradient of these nodes and of fit, clip_norm and comparisons is the constant 0. The gradient of fit(e, watch), e elementwise and watch without the variable, is that of e: at positions that exist in the watched shape it is the derivative of the sum of the result's elements. Findings: at positions that fit cuts off that derivative is 0 and the gradient still that of e; the gradient of clip_norm of a variable whose first element is not 0 is the single number cap, while the result of a variable of one element is constant on both sides of 0, and with more elements the derivative with respect to any but the first is cap divided by the first element's absolute value; the gradient of a comparison of two elementwise expressions is at each element the comparison of their derivatives there, 1 or 0, so that of two variables is 1 if the comparison holds of 1 and 0 (as != does) and otherwise 0, while the result is constant wherever the comparison does not change.", "quantifier": "all shapes of equal rank, positions, elementwise expressions regular at the values, values, caps and comparisons", "why_tests_cant": "ranges over all shapes, expressions and real values; being a derivative is a limit", "anchors": ["app/tenncor/src/graph/operations/transform.ipp: fit, arg_compress, arg_max, cross_corr2d", "app/tenncor/src/graph/operations/elementary.ipp: clip_norm, conditional, eq, neq", "app/tenncor/src/graph/connector/immutable/base_immutable.ipp: derive, get_gradient"]}
{"id": "C70", "title": "Moving and assigning placeholders and variables", "statement": "Moving a placeholder or variable gives a new node with the shape, data, status and initializer of the old one; the old node then evaluates to null, has the empty shape and, if a variable, no initializer; no other node changes. Move assignment i = std::move(j) does the same with i in place of the new node and notifies twice; copy assignment i = j makes i look exactly as j, j and every other node staying as they were, and notifies twice; i may itself have been moved from. Assigning a node to itself changes nothing. Moving a node away and back restores it. No operation changes a node it does not write to. Findings: a node that has been moved from keeps its status, so good_status() may be true while eval() is null; until another node is assigned to it, initialising it fails an assertion, or follows a null pointer if an initializer is set first; feeding it follows a null pointer; running an updater that reads it fails an assertion, one that writes to it follows a null pointer or fails an assertion, even when made before the move.", "quantifier": "all histories of creating, initialising, feeding, setting initializers, updaters made and run, cloning, moving and assigning placeholders and variables; all shapes, data and initializers", "why_tests_cant": "ranges over all histories; what a moved-from node does is undefined behaviour in places", "anchors": ["app/tenncor/src/graph/leaf/ileaf.ipp: move_helper, copy_helper, operator=, get_eval, get_shape, good_status", "app/tenncor/src/graph/leaf/ivariable.ipp: move_helper, copy_helper, operator=", "app/tenncor/src/graph/leaf/placeholder.ipp: operator=", "app/tenncor/src/graph/leaf/variable.ipp: move, initialize, assign, assign_add, assign_sub"]}
