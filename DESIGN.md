# Formal model of mingkaic/rocnnet in Rocq (Coq 8.16.1)

## Method

The C++ code in `/repo/app/tenncor` and `/repo/app/rocnnet` is read as text and
transcribed, function by function, into total computable Gallina functions.
Each definition carries a comment citing the file and lines it models.

* `theories/Common.v` - the outcome type. `Ok` is a normal result, `Throw` a C++
  exception, `Abort` a failed `assert`, `UB` undefined behaviour (out-of-bounds
  access, null dereference, division by zero, use after free). Buffers are lists;
  reading or writing outside gives `UB`.
* `theories/*Model.v` - models, no proofs. `theories/*Spec.v` - small
  specifications written without the model's helpers. `theories/*Proofs.v` -
  lemmas. `theories/Properties*.v` - only the property theorems, each closed by
  `exact` and followed by `Print Assumptions`, with an `Example` showing the
  hypotheses are met.
* Loops become recursion on a counter, or on fuel with a distinct out-of-fuel
  outcome that the theorems exclude.
* `std::unordered_map/unordered_set` iteration order and ties in the priority
  queue are arbitrary: the theorem quantifies over the order.
* The element type is abstract (any type, with the operations needed), so results
  hold for float, double and any other instantiation as far as *data movement*
  goes. Where arithmetic matters (gradients, annealing, Strassen) the elements are
  an abstract ring or the reals of Coq's standard library: floating point rounding
  is not modelled.
* A property that is false of the code is recorded as `..._refuted`, with a
  witness, next to the strongest true version.

## Plan per property

| id | modelled | proof |
|---|---|---|
| C01, C02 | `flat_idx`, `coordinate_from_idx`, `iterate` over `list nat` | mixed-radix induction on the dimension list |
| C03, C04 | `is_compatible_with` with its index loops | reduction to a list specification (strip ones, strip zeros, pointwise) |
| C05, C06 | `merge_with`, `trim`, `with_rank*`, `concatenate` | list induction |
| C07 | `n_elems`, `n_known` on `N` with explicit mod 2^64 | induction; witness for wrap |
| C08 | `fit_toshape` loop over buffers with `UB` | loop invariant on copied prefix |
| C09, C10, C11 | tensor object as state machine over a heap of buffers | invariant by induction over operation lists |
| C12, C13 | `get`, `expose`, `guess_shape`, ... | arithmetic; witness for aliasing |
| C14, C15 | `serialize`, `from_proto` | round trip, witnesses |
| C16-C20 | forward/shape functions of `transform.ipp` | loop lemmas: each index written once |
| C21 | `matmul_shaper`, `cubic_mul`, batched forward | triple loop invariants |
| C22 | `strassen` with explicit scratch buffers over an abstract ring | induction on the recursion size |
| C23, C24 | `elementary_shaper`, `binary_elem`, `binary_axial` | loop lemmas |
| C25, C26 | scalar folding paths vs forward functions | algebra over R; witnesses |
| C27, C28 | subject/observer links as finite maps | invariant over histories |
| C29-C31 | graph manager: queue, depth order, dirty set | invariant over the update loop; arbitrary tie order |
| C32 | builders with label search | soundness under injective labels; collision witnesses |
| C33, C34 | placeholder, variable, constant | list lemmas |
| C35 | key construction and label map | injectivity of decimal printing, round trip |
| C36, C37 | expressions over R with the code's backward rules | structural induction with Coq's `derivable_pt_lim`; sums for tensors |
| C38 | updaters | induction on steps over R |
| C39 | sigmoid/tanh/softmax over R | real analysis lemmas |
| C40 | linked list + hash map + iterators with explicit nodes | refinement to an association list; crash witnesses |
| C41-C43 | `dq_net` store/train/annealing/target update | induction on history; witnesses |
| C44, C45 | layers, mlp, clone, assignment and move helpers (MlpModel, MoveLayerModel) | composition by induction over layers; witnesses |
| C46, C47 | registry and edge recorder | refinement to map / set |
| C48 | `cross_corr2d` on `N` with wrap-around | loop lemma: some read is outside, for every image and filter |
| C49 | heap of tensors, any list of operations on other tensors | frame invariant by induction |
| C50 | `dq_net::train` and `store` over the replay memory | induction over histories |
| C51 | `gd_net::train` on the evaluation graph (freeze, assign, update) | invariant of EvalModel plus C37's derivative |
| C52 | `stoppable_thread`/`stop_flag` as interleaved state machines | invariant over all schedules |
| C53 | `reduce_mean` as quotient of `reduce_sum` and the `shape_dep` node | loop lemmas, reals |
| C54 | `generator` over the tensor heap, updates at any time | invariant over histories |
| C55 | subscription handlers, caches, producer, shutdown as interleaved threads | invariant over all schedules; deadlock witnesses |
| C56 | `csv_record::to_csv` and an independent reader | decoding lemma on strings |
| C57 | energy, reconstruction and pseudo-likelihood costs of `rbm` | matrix lemmas, reals; sum over configurations |
| C58 | `conv_layer` copies, moves, calls over a store of variables | case analysis, C48 |
| C59 | gradient construction with axis groupings and axial operations, cost of `rbm::train` | explicit gradient nodes, values, limits |
| C60 | `binomial_sample`, `as_constant`, the Gibbs chain with arbitrary draws | loop invariant; sums over configurations factor |
| C61 | `db_net` prop_up, pretraining and fine tuning functions (DbModel) | induction on the layers with C59/C60's step; the gradient of softmax's three uses of one node (GroupModel) computed, true slope by the chain rule |
| C62 | calling the functions that rbm::train and build_finetune_functions return, on evaluation graphs (CallModel) | C51's argument on frozen graphs for any mix of updaters; expressions shown by nodes evaluate to what C59/C61 subtract; a graph is built for every expression to show that the hypotheses can be met |
| C63 | the constructors and copy helpers of MlpModel | induction over the lists of layers: the store grows by exactly the listed variables; names are distinct because a decimal numeral contains no underscore and printing is injective |
| C64 | GroupModel's gradient construction for extend, flip, reduce_sum along an axis, reduce_mean, l2norm | C36/C37 for the elementwise part; sums over coordinates (CoordSum) are unchanged by mirroring and by folding an axis and multiplied by repeating one |
| C65 | RmsNetModel: train with rmsprop updaters on EvalModel's graph | every state equals a plain history with the momenta overwritten; momentum nodes keep reading the initial value; then as C51 |
| C66 | GroupModel's operator + on arguments with grouping marks, ElemModel's axial forward pass | C36/C37 for both arguments; the axial pass on two tensors of the same shape in all cases (unpad and compatibility for extent one, otherwise Throw or UB) |
| C67 | GroupModel's axial operations and their backward functions, ElemModel's axial forward pass | C24 for the values, C36 for the large argument; each element of the result depends on one element of the variable, so the sum's derivative is the product with the operation's slope |
| C68 | as C67, with the Jacobian entry that sums along the axis (GJSum) | C18 for the elements of the sum along the axis, reindexed by the elements below (sums over coordinates); C36 for the small argument; uniqueness of the derivative for the refutation |
| C69 | OtherGradModel: get_gradient, backward function and Jacobians of a node of these operations over GroupModel's expressions | C08 for the elements of fit and sums over them, C36 for the argument; C26 for the value of clip_norm; locally constant functions for the refutations |
| C70 | LeafMoveModel: LeafModel's worlds with a mark on the nodes whose tensor has been moved away; move(), move and copy assignment, the null pointer followed or asserted on by every other operation | invariant: a marked node has a tensor without storage and, if a variable, no initializer unless set again; LeafLaws for the rest |

## What is modelled, file by file

| /repo/app | model | not modelled |
|---|---|---|
| tenncor/src/tensor/tensorshape.cpp | ShapeModel | printing |
| tenncor/src/tensor/tensor.ipp, include/tensor/tensor.hpp, src/memory/*alloc* | FitModel, TensorModel, SerialModel | allocation failure, allocators other than default_alloc |
| tenncor/src/tensor/tensor_handler.ipp | ElemModel (transfer), LeafModel (assign, initializers), GenModel | the random engines: a draw is an arbitrary value |
| tenncor/src/graph/operations/transform.ipp, matmul.ipp, elementary.ipp | TransformModel, MatmulModel (with MemModel), ElemModel; builders' reuse of nodes: CseModel; backward functions: GradModel, GroupModel, OtherGradModel; sampling: SampleModel | the gradient of binomial_sample (null); gradients through fit, clip_norm and comparisons below the root |
| tenncor/src/graph/operations/operation_utils.ipp | CseModel | |
| tenncor/src/graph/connector/iconnector.ipp, immutable/base_immutable.ipp, immutable.ipp, const_immutable.ipp, shape_dep.ipp | EvalModel (update, graph_manager, freeze), GradModel/GroupModel (derive, jacobians), ReactModel (death) | |
| tenncor/src/graph/connector/immutable/generator.ipp | GenModel | |
| tenncor/src/graph/connector/mutable/mutable_connector.ipp | - | dead code, nothing includes it |
| tenncor/src/graph/leaf/* | LeafModel, EvalModel (notification) | |
| tenncor/src/graph/react/*, inode.ipp, varptr.ipp | ReactModel, CseModel (find_audience), GroupModel (grouping metadata) | other metadata; uids are distinct numbers |
| tenncor/src/utils/futils.ipp, gd_utils.cpp | FutilsModel, UpdaterModel | |
| tenncor/src/memory/tensor_io.ipp, proto | SerialModel | protobuf's wire format (a message parses back to itself) |
| tenncor/src/memory/alloc_builder.cpp, edgeinfo/*record* | RecordModel, CsvModel | |
| tenncor/src/edgeinfo/grpc_vis/gui_notifier.cpp | SubModel | gRPC itself; data races on subscriptions_ (each access is one step) |
| tenncor/src/thread/* | CacheModel, ThreadModel | memory order (sequential consistency is assumed), the promise handshake of the constructor |
| rocnnet/src/layers/*, compounds/*, models/{gd_net,rbm,db_net,dq_net}.cpp | MlpModel, ConvModel, RbmModel, RbmTrainModel, RbmChainModel, DbModel, CallModel, TrainModel, DqnModel, SerialModel | |
| graph_gui, boostpy, demo, pylib, ipython | - | user interfaces, demos and Python glue |

Arithmetic: integers are unbounded except where wrap-around is the subject (C07, C48); elements
are an abstract type or the reals. Addresses are never reused. Each model file's header lists
its own simplifications, each definition those local to it.

## Trusted base

* Coq's kernel (8.16.1). No axioms of our own, no switched-off checks, no plugins.
* What `Print Assumptions` lists for each theorem: see AXIOMS.md (generated by
  tools/axioms.py; the property files print it on every build). About four fifths of the
  theorems are closed under the global context. Those about real numbers use the axioms behind Coq's
  reals: `ClassicalDedekindReals.sig_forall_dec`, `ClassicalDedekindReals.sig_not_dec`,
  `functional_extensionality_dep`, and `Classical_Prop.classic` (through the library's
  lemmas on derivatives and exp/ln). Three examples (the non-vacuity of C37, C51 and C61) also use
  `Description.constructive_definite_description`, through Coq's `sin`/`sqrt`-style
  definitions.
* The faithfulness of the transcription, argued by the citations in the comments and by the
  seeded wrong programs in seeded/LOG.jsonl: each edits one modelled definition the way a bug
  would and names the theorem that then fails to build.

## Findings

Properties one would wish for and that the code does not have are stated exactly in
properties.jsonl ("Finding") and proved as theorems with the suffix `_refuted` beside the
strongest true version.
