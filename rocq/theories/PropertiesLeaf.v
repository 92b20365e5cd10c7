(** Generated by tools/genprops.py from LeafLaws.v: property statements only. *)
From Verif Require Import Common ShapeModel ShapeSpec ShapeProofs FitModel TensorModel TensorSpec TensorProofs TensorDataLaws LeafModel LeafSpec LeafProofs.
From Verif Require Import LeafLaws.

(** Feeding a placeholder: accepted exactly when the placeholder's current shape can be
    completed to one with as many elements as there are values; then evaluating it gives
    those values, every other node is unchanged and exactly one notification is sent. *)
Theorem C33_feed_reads_back :
  forall (T : Type) (zero junk : T) add sub eqb ops (W : lworld) i s (d : list T),
    lrun zero junk add sub eqb linit ops = Ok W -> is_place W i -> shape_of W i s ->
    (exists s', completes s s' /\ n_elems s' = length d) ->
    exists W' s1, lstep zero junk add sub eqb W (LFeed i d) = Ok W' /\
      observe W' i = Ok (Some (s1, d)) /\ completes s s1 /\ n_elems s1 = length d /\
      (defined s -> s1 = s) /\ l_log W' = l_log W ++ [i] /\ others_same W W' i.
Proof. exact C33_feed_reads_back_lemma. Qed.
Print Assumptions C33_feed_reads_back.

(** Any other number of values fails the assertion in operator= (nothing is stored). *)
Theorem C33_feed_rejects :
  forall (T : Type) (zero junk : T) add sub eqb ops (W : lworld) i s (d : list T),
    lrun zero junk add sub eqb linit ops = Ok W -> is_place W i -> shape_of W i s ->
    (forall s', completes s s' -> n_elems s' <> length d) ->
    lstep zero junk add sub eqb W (LFeed i d) = Abort.
Proof. exact C33_feed_rejects_lemma. Qed.
Print Assumptions C33_feed_rejects.

(** Feeding a tensor object replaces shape and contents by the tensor's. *)
Theorem C33_feed_tensor :
  forall (T : Type) (zero junk : T) add sub eqb ops (W : lworld) i j s (d : list T),
    lrun zero junk add sub eqb linit ops = Ok W -> is_place W i -> has_kind W j KTensor ->
    observe W j = Ok (Some (s, d)) ->
    exists W', lstep zero junk add sub eqb W (LFeedTensor i j) = Ok W' /\
      observe W' i = Ok (Some (s, d)) /\ l_log W' = l_log W ++ [i] /\
      (forall k, k <> i -> k <> j -> k < length (l_fs W) -> observe W' k = observe W k).
Proof. exact C33_feed_tensor_lemma. Qed.
Print Assumptions C33_feed_tensor.

(** ... and empties the argument, although operator=(tensor&) takes an lvalue. *)
Theorem C33_feed_tensor_keeps_argument_refuted :
  forall (T : Type) (zero junk : T) add sub eqb ops (W : lworld) i j s (d : list T),
    lrun zero junk add sub eqb linit ops = Ok W -> is_place W i -> has_kind W j KTensor ->
    observe W j = Ok (Some (s, d)) ->
    exists W', lstep zero junk add sub eqb W (LFeedTensor i j) = Ok W' /\
      observe W' j = Abort /\ shape_of W' j [].
Proof. exact C33_feed_tensor_keeps_argument_refuted_lemma. Qed.
Print Assumptions C33_feed_tensor_keeps_argument_refuted.

(** initialize(): with an initializer and a fully defined shape every element is what the
    initializer yields; without a defined shape it throws, without initializer it asserts. *)
Theorem C33_initialize :
  forall (T : Type) (zero junk : T) add sub eqb ops (W : lworld) i s (f : nat -> T),
    lrun zero junk add sub eqb linit ops = Ok W -> has_kind W i (KVar (Some f)) -> shape_of W i s ->
    (defined s -> exists W', lstep zero junk add sub eqb W (LInit i) = Ok W' /\
       observe W' i = Ok (Some (s, map f (seq 0 (n_elems s)))) /\
       l_log W' = l_log W ++ [i] /\ others_same W W' i) /\
    (~ defined s -> lstep zero junk add sub eqb W (LInit i) = Throw).
Proof. exact C33_initialize_lemma. Qed.
Print Assumptions C33_initialize.

Theorem C33_initialize_without_initializer :
  forall (T : Type) (zero junk : T) add sub eqb ops (W : lworld) i s,
    lrun zero junk add sub eqb linit ops = Ok W -> has_kind W i (KVar None) ->
    lstep zero junk add sub eqb W (LInit i) = Abort /\ lstep zero junk add sub eqb W (LInitShape i s) = Abort.
Proof. exact C33_initialize_without_initializer_lemma. Qed.
Print Assumptions C33_initialize_without_initializer.

(** initialize(shape) on a variable without data: exactly for fully defined shapes
    compatible with the declared one. *)
Theorem C33_initialize_shape :
  forall (T : Type) (zero junk : T) add sub eqb ops (W : lworld) i s0 s (f : nat -> T),
    lrun zero junk add sub eqb linit ops = Ok W -> has_kind W i (KVar (Some f)) -> shape_of W i s0 -> ~ defined s0 ->
    (defined s /\ is_compatible_with s s0 = Ok true ->
       exists W', lstep zero junk add sub eqb W (LInitShape i s) = Ok W' /\
         observe W' i = Ok (Some (s, map f (seq 0 (n_elems s)))) /\
         l_log W' = l_log W ++ [i] /\ others_same W W' i) /\
    (~ (defined s /\ is_compatible_with s s0 = Ok true) -> lstep zero junk add sub eqb W (LInitShape i s) = Throw).
Proof. exact C33_initialize_shape_lemma. Qed.
Print Assumptions C33_initialize_shape.

(** A variable that already holds data of a compatible shape cannot be initialised with
    that shape again: allocate returns false and initialize(shape) throws. *)
Theorem C33_reinitialize_shape_refuted :
  forall (T : Type) (zero junk : T) add sub eqb ops (W : lworld) i s (d : list T) (f : nat -> T),
    lrun zero junk add sub eqb linit ops = Ok W -> has_kind W i (KVar (Some f)) -> observe W i = Ok (Some (s, d)) ->
    lstep zero junk add sub eqb W (LInitShape i s) = Throw.
Proof. exact C33_reinitialize_shape_refuted_lemma. Qed.
Print Assumptions C33_reinitialize_shape_refuted.

(** an initialised variable: what its updaters do. The input's value is taken when the
    updater is called. Holds for the variable itself as input too. *)
Theorem C33_updater_from_node :
  forall (T : Type) (zero junk : T) add sub eqb ops ops2 (W W1 W2 : lworld) a i j s (x y : list T) sj notify,
    lrun zero junk add sub eqb linit ops = Ok W -> ~ is_const W j ->
    lstep zero junk add sub eqb W (LUpdater a i j) = Ok W1 -> lrun zero junk add sub eqb W1 ops2 = Ok W2 ->
    observe W2 i = Ok (Some (s, x)) -> observe W2 j = Ok (Some (sj, y)) ->
    let u := length (l_us W) in
    (length y = length x ->
       exists W3, lstep zero junk add sub eqb W2 (LRun u notify) = Ok W3 /\
         observe W3 i = Ok (Some (s, zipw (match a with ASet => fun _ v => v | AAdd => add | ASub => sub end) x y)) /\
         l_log W3 = l_log W2 ++ (if notify then [i] else []) /\ others_same W2 W3 i) /\
    (length y <> length x -> lstep zero junk add sub eqb W2 (LRun u notify) = Abort).
Proof. exact C33_updater_from_node_lemma. Qed.
Print Assumptions C33_updater_from_node.

(** Input is a constant: its data is captured when the updater is made (constants never
    change, C34). The constant must have at least as many elements as the variable and only
    its leading elements are used -- except that adding or subtracting a scalar constant 0
    is accepted for a variable of any size. *)
Theorem C33_updater_from_constant :
  forall (T : Type) (zero junk : T) add sub eqb ops ops2 (W W1 W2 : lworld) a i j s (x c : list T) sc notify,
    (forall v, add v zero = v) -> (forall v, sub v zero = v) -> (forall u v, eqb u v = true <-> u = v) ->
    lrun zero junk add sub eqb linit ops = Ok W -> is_const W j -> observe W j = Ok (Some (sc, c)) ->
    lstep zero junk add sub eqb W (LUpdater a i j) = Ok W1 -> lrun zero junk add sub eqb W1 ops2 = Ok W2 ->
    observe W2 i = Ok (Some (s, x)) ->
    let u := length (l_us W) in
    (length x <= length c ->
       exists W3, lstep zero junk add sub eqb W2 (LRun u notify) = Ok W3 /\
         observe W3 i = Ok (Some (s, zipw (match a with ASet => fun _ v => v | AAdd => add | ASub => sub end) x c)) /\
         others_same W2 W3 i) /\
    (length c < length x -> c = [zero] /\ a <> ASet -> lstep zero junk add sub eqb W2 (LRun u notify) = Ok W2) /\
    (length c < length x -> ~ (c = [zero] /\ a <> ASet) -> lstep zero junk add sub eqb W2 (LRun u notify) = Abort).
Proof. exact C33_updater_from_constant_lemma. Qed.
Print Assumptions C33_updater_from_constant.

(** An updater run on a variable that was never initialised stores the data but eval still
    returns nullptr. *)
Theorem C33_assign_to_uninitialized_refuted :
  exists (W : @lworld nat),
    lrun 0 0 Nat.add Nat.sub Nat.eqb linit [LConst [4; 5] [2]; LVar [2] None; LUpdater ASet 1 0; LRun 0 true] = Ok W /\
    (exists t p, alive (l_w W) 1 t /\ raw t = Some p /\ live (l_w W) p [4; 5]) /\ observe W 1 = Ok None.
Proof. exact C33_assign_to_uninitialized_refuted_lemma. Qed.
Print Assumptions C33_assign_to_uninitialized_refuted.

(** Nodes an operation does not write to look the same afterwards. *)
Theorem C33_other_nodes_unchanged :
  forall (T : Type) (zero junk : T) add sub eqb ops (W W' : lworld) o k,
    lrun zero junk add sub eqb linit ops = Ok W -> lstep zero junk add sub eqb W o = Ok W' ->
    k < length (l_fs W) -> ~ writes W o k -> observe W' k = observe W k.
Proof. exact C33_other_nodes_unchanged_lemma. Qed.
Print Assumptions C33_other_nodes_unchanged.

(** A clone evaluates to what the original evaluates to and is unaffected by what is done
    to the original later (and the other way round), by the previous theorem. *)
Theorem C33_clone :
  forall (T : Type) (zero junk : T) add sub eqb ops (W : lworld) i s (d : list T),
    lrun zero junk add sub eqb linit ops = Ok W -> (is_place W i \/ is_var W i) -> observe W i = Ok (Some (s, d)) ->
    exists W', lstep zero junk add sub eqb W (LClone i) = Ok W' /\
      observe W' (length (l_fs W)) = Ok (Some (s, d)) /\ observe W' i = Ok (Some (s, d)).
Proof. exact C33_clone_lemma. Qed.
Print Assumptions C33_clone.

Example C33_nonvacuous :
  exists (W W2 : @lworld nat),
    lrun 0 0 Nat.add Nat.sub Nat.eqb linit
      [LPlace [0; 2]; LVar [2] (Some (fun k => 10 + k)); LInit 1; LConst [1; 2; 3] [3]; LTensor [2] [7; 8]] = Ok W /\
    is_place W 0 /\ shape_of W 0 [0; 2] /\ completes [0; 2] [2; 2] /\ n_elems [2; 2] = 4 /\
    observe W 1 = Ok (Some ([2], [10; 11])) /\
    lrun 0 0 Nat.add Nat.sub Nat.eqb W
      [LFeed 0 [1; 2; 3; 4]; LUpdater AAdd 1 2; LUpdater ASub 1 3; LUpdater AAdd 1 1; LRun 0 true; LRun 1 false; LRun 2 true] = Ok W2 /\
    observe W2 0 = Ok (Some ([2; 2], [1; 2; 3; 4])) /\ observe W2 1 = Ok (Some ([2], [8; 10])) /\ l_log W2 = [1; 0; 1; 1].
Proof. exact C33_nonvacuous_lemma. Qed.

(** constant(raw, shape), fully defined shape: raw, cut or padded with zeros to the number
    of elements. *)
Theorem C34_constant_defined_shape :
  forall (T : Type) (zero junk : T) add sub eqb ops (W : lworld) (d : list T) s,
    lrun zero junk add sub eqb linit ops = Ok W -> defined s ->
    exists W', lstep zero junk add sub eqb W (LConst d s) = Ok W' /\ is_const W' (length (l_fs W)) /\
      observe W' (length (l_fs W)) = Ok (Some (s, firstn (n_elems s) d ++ repeat zero (n_elems s - length d))).
Proof. exact C34_constant_defined_shape_lemma. Qed.
Print Assumptions C34_constant_defined_shape.

(** constant(raw, shape), partially known shape: the unknown dimensions are completed so
    that all of raw fits, wasting less than one slice beyond what is needed. *)
Theorem C34_constant_partial_shape :
  forall (T : Type) (zero junk : T) add sub eqb ops (W : lworld) (d : list T) s,
    lrun zero junk add sub eqb linit ops = Ok W -> s <> [] -> ~ defined s ->
    exists W' s', lstep zero junk add sub eqb W (LConst d s) = Ok W' /\ is_const W' (length (l_fs W)) /\
      completes s s' /\ length d <= n_elems s' < Nat.max (length d) (n_known s) + n_known s /\
      observe W' (length (l_fs W)) = Ok (Some (s', d ++ repeat zero (n_elems s' - length d))).
Proof. exact C34_constant_partial_shape_lemma. Qed.
Print Assumptions C34_constant_partial_shape.

(** an undefined shape: the shape guess writes outside an empty vector *)
Theorem C34_constant_undefined_shape_refuted :
  forall (T : Type) (zero junk : T) add sub eqb (W : lworld) (d : list T),
    lstep zero junk add sub eqb W (LConst d []) = UB.
Proof. exact C34_constant_undefined_shape_refuted_lemma. Qed.
Print Assumptions C34_constant_undefined_shape_refuted.

Theorem C34_scalar_constant :
  forall (T : Type) (zero junk : T) add sub eqb ops (W : lworld) (v : T),
    lrun zero junk add sub eqb linit ops = Ok W ->
    exists W', lstep zero junk add sub eqb W (LConstScalar v) = Ok W' /\ is_const W' (length (l_fs W)) /\
      observe W' (length (l_fs W)) = Ok (Some ([1], [v])).
Proof. exact C34_scalar_constant_lemma. Qed.
Print Assumptions C34_scalar_constant.

(** A constant keeps its value for ever. *)
Theorem C34_constants_never_change :
  forall (T : Type) (zero junk : T) add sub eqb ops ops2 (W W2 : lworld) k,
    lrun zero junk add sub eqb linit ops = Ok W -> is_const W k -> lrun zero junk add sub eqb W ops2 = Ok W2 ->
    is_const W2 k /\ observe W2 k = observe W k.
Proof. exact C34_constants_never_change_lemma. Qed.
Print Assumptions C34_constants_never_change.

(** operator==(constant, scalar): one element, equal to the scalar. *)
Theorem C34_equals_scalar :
  forall (T : Type) (zero junk : T) add sub eqb ops (W : lworld) k t s (d : list T) v,
    (forall u v, eqb u v = true <-> u = v) ->
    lrun zero junk add sub eqb linit ops = Ok W -> observe W k = Ok (Some (s, d)) -> alive (l_w W) k t ->
    exists r, const_eqb eqb (lheap W) t v = Ok r /\ (r = true <-> d = [v]).
Proof. exact C34_equals_scalar_lemma. Qed.
Print Assumptions C34_equals_scalar.

(** const_axis: the scalar exactly on the slice, zero elsewhere, in the given shape. *)
Theorem C34_const_axis :
  forall (T : Type) (zero junk scalar : T) (h : heap T) dimension index s,
    defined s -> dimension < length s ->
    exists h' t d, const_axis zero junk h dimension index scalar s = Ok (h', t) /\
      get_shape t = s /\ t_expose h' t = Ok d /\ length d = n_elems s /\
      (forall c, in_bounds s c -> nth_error d (offset s c) = Some (if nth dimension c 0 =? index then scalar else zero)).
Proof. exact C34_const_axis_lemma. Qed.
Print Assumptions C34_const_axis.

(** an axis the shape does not have: the coordinate vector is read out of bounds *)
Theorem C34_const_axis_bad_dimension_refuted :
  forall (T : Type) (zero junk scalar : T) (h : heap T) dimension index s,
    defined s -> length s <= dimension -> const_axis zero junk h dimension index scalar s = UB.
Proof. exact C34_const_axis_bad_dimension_refuted_lemma. Qed.
Print Assumptions C34_const_axis_bad_dimension_refuted.

Example C34_nonvacuous :
  exists (W : @lworld nat),
    lrun 0 0 Nat.add Nat.sub Nat.eqb linit [LConst [1; 2; 3] [2; 0]; LConst [1; 2; 3] [2]; LConst [1] [3]] = Ok W /\
    observe W 0 = Ok (Some ([2; 2], [1; 2; 3; 0])) /\ observe W 1 = Ok (Some ([2], [1; 2])) /\
    observe W 2 = Ok (Some ([3], [1; 0; 0])) /\
    const_axis_data 0 1 1 9 [2; 2] = Ok [0; 0; 9; 9].
Proof. exact C34_nonvacuous_lemma. Qed.
