(** Generated by tools/genprops.py from TensorDataLaws.v: property statements only. *)
From Verif Require Import Common ShapeModel ShapeSpec ShapeProofs FitModel FitProofs TensorModel TensorSpec TensorProofs.
From Verif Require Import TensorDataLaws.

(** In every reachable state, set_shape on an allocated tensor
    - with a fully defined shape that is not compatible reallocates to exactly that shape,
      keeping every element whose coordinate exists in both shapes and zeroing the others;
    - with a shape compatible with the allocated one changes neither shape nor data. *)
Theorem C11_set_shape_keeps_data :
  forall (T : Type) (zero junk : T) (ops : list (op T)) (w : world T) i t p b (s : shape),
    run zero junk init ops = Ok w -> owns w i t p -> live w p b ->
    (is_fully_defined s = true -> is_compatible_with s (alloc_shape t) = Ok false ->
       exists w' t' p' b', step zero junk w (OSetShape i s) = Ok w' /\
         owns w' i t' p' /\ live w' p' b' /\ alloc_shape t' = s /\ length b' = n_elems s /\
         (forall c, in_bounds s c -> belongs (alloc_shape t) c ->
            nth_error b' (offset s c) = nth_error b (offset (alloc_shape t) c)) /\
         (forall c, in_bounds s c -> ~ belongs (alloc_shape t) c -> nth_error b' (offset s c) = Some zero)) /\
    (is_compatible_with s (alloc_shape t) = Ok true ->
       exists w' t', step zero junk w (OSetShape i s) = Ok w' /\
         owns w' i t' p /\ live w' p b /\ alloc_shape t' = alloc_shape t).
Proof. exact C11_set_shape_keeps_data_lemma. Qed.
Print Assumptions C11_set_shape_keeps_data.

(** With a partially known shape of the same rank as the allocated and allowed shapes, the
    unknown dimensions are taken from the allocated shape. *)
Theorem C11_set_shape_partial_dims :
  forall (T : Type) (zero junk : T) (ops : list (op T)) (w : world T) i t p b (s : shape),
    run zero junk init ops = Ok w -> owns w i t p -> live w p b ->
    length s = length (alloc_shape t) -> length (allowed_shape t) = length s ->
    is_compatible_with (alloc_shape t) (allowed_shape t) = Ok true ->
    is_compatible_with s (alloc_shape t) = Ok false ->
    exists w' t' p' b', step zero junk w (OSetShape i s) = Ok w' /\
      owns w' i t' p' /\ live w' p' b' /\
      length (alloc_shape t') = length s /\
      (forall k, k < length s ->
         nth k (alloc_shape t') 0 = if nth k s 0 =? 0 then nth k (alloc_shape t) 0 else nth k s 0) /\
      length b' = n_elems (alloc_shape t') /\
      (forall c, in_bounds (alloc_shape t') c ->
         nth_error b' (offset (alloc_shape t') c) =
           if belongsb (alloc_shape t) c then nth_error b (offset (alloc_shape t) c) else Some zero).
Proof. exact C11_set_shape_partial_dims_lemma. Qed.
Print Assumptions C11_set_shape_partial_dims.

(** Outside those cases the request can be dropped silently: a tensor whose allowed shape
    is undefined ignores a partially known shape, although it is incompatible. *)
Theorem C11_partial_shape_ignored_refuted :
  exists (w w' : world nat) t, run 0 0 init [ONew []; OAllocateShape 0 [2; 2]] = Ok w /\
    step 0 0 w (OSetShape 0 [3; 0]) = Ok w' /\ alive w' 0 t /\ is_alloc t = true /\ alloc_shape t = [2; 2] /\
    is_compatible_with [3; 0] (alloc_shape t) = Ok false.
Proof. exact C11_partial_shape_ignored_refuted_lemma. Qed.
Print Assumptions C11_partial_shape_ignored_refuted.

Example C11_nonvacuous :
  exists w w' : world nat, run 0 9 init [ONew [2; 2]; OStore 0 0 1; OStore 0 1 2; OStore 0 2 3; OStore 0 3 4] = Ok w /\
    is_compatible_with [3; 2] [2; 2] = Ok false /\
    step 0 9 w (OSetShape 0 [3; 2]) = Ok w' /\ live w' 1 [1; 2; 0; 3; 4; 0] /\
    is_compatible_with [3; 0] [2; 2] = Ok false.
Proof. exact C11_nonvacuous_lemma. Qed.

(** In every reachable state get on an in-bounds coordinate returns the element that
    expose lists at the coordinate's storage offset. *)
Theorem C12_get_agrees_with_expose :
  forall (T : Type) (zero junk : T) (ops : list (op T)) (w : world T) i t p,
    run zero junk init ops = Ok w -> owns w i t p ->
    exists b, t_expose (w_heap w) t = Ok b /\ length b = n_elems (alloc_shape t) /\
      forall c, in_bounds (alloc_shape t) c ->
        exists x, nth_error b (offset (alloc_shape t) c) = Some x /\ t_get (w_heap w) t c = Ok x.
Proof. exact C12_get_agrees_with_expose_lemma. Qed.
Print Assumptions C12_get_agrees_with_expose.

(** For any non-empty coordinate, get throws exactly when the mixed-radix offset is past
    the last element, and otherwise never leaves the buffer. *)
Theorem C12_get_throws_past_the_end :
  forall (T : Type) (zero junk : T) (ops : list (op T)) (w : world T) i t p c,
    run zero junk init ops = Ok w -> owns w i t p -> c <> [] ->
    (t_get (w_heap w) t c = Throw <-> n_elems (alloc_shape t) <= offset (alloc_shape t) c) /\
    (t_get (w_heap w) t c = Throw \/ exists x, t_get (w_heap w) t c = Ok x).
Proof. exact C12_get_throws_past_the_end_lemma. Qed.
Print Assumptions C12_get_throws_past_the_end.

(** a coordinate beyond the last dimension (all others in bounds) is always rejected *)
Theorem C12_get_throws_last_dimension :
  forall (T : Type) (zero junk : T) (ops : list (op T)) (w : world T) i t p c,
    run zero junk init ops = Ok w -> owns w i t p -> length c = length (alloc_shape t) ->
    last (alloc_shape t) 0 <= last c 0 -> t_get (w_heap w) t c = Throw.
Proof. exact C12_get_throws_last_dimension_lemma. Qed.
Print Assumptions C12_get_throws_last_dimension.

(** The documented claim is false for the other dimensions: an out-of-bound entry aliases
    another element instead of throwing. *)
Theorem C12_out_of_bound_aliases_refuted :
  exists (w : world nat) t, run 0 0 init [ONew [2; 2]; OStore 0 2 7] = Ok w /\ alive w 0 t /\
    ~ in_bounds (alloc_shape t) [2; 0] /\ t_get (w_heap w) t [2; 0] = Ok 7.
Proof. exact C12_out_of_bound_aliases_refuted_lemma. Qed.
Print Assumptions C12_out_of_bound_aliases_refuted.

(** get on a tensor that has no data throws *)
Theorem C12_get_unallocated_throws :
  forall (T : Type) (junk : T) (h : heap T) (s : shape) c,
    is_fully_defined s = false -> c <> [] ->
    t_get h (snd (t_new junk h s)) c = Throw.
Proof. exact C12_get_unallocated_throws_lemma. Qed.
Print Assumptions C12_get_unallocated_throws.

Example C12_nonvacuous :
  exists (w : world nat) t, run 0 0 init [ONew [2; 3]; OStore 0 5 7] = Ok w /\ owns w 0 t 0 /\
    in_bounds (alloc_shape t) [1; 2] /\ t_get (w_heap w) t [1; 2] = Ok 7 /\ t_get (w_heap w) t [0; 3] = Throw.
Proof. exact C12_nonvacuous_lemma. Qed.

(** guess_shape is total; for a positive data length it is sound (it returns a fully
    defined completion of the allowed shape with exactly that many elements, compatible
    with it) and complete (if it returns nothing, no completion has that many elements). *)
Theorem C13_guess_shape_sound_complete :
  forall (allowed : shape) (n : nat), 0 < n ->
    exists r, guess_shape allowed n = Ok r /\
      (forall s, r = Some s -> completes allowed s /\ n_elems s = n /\ is_compatible_with s allowed = Ok true) /\
      (r = None -> forall s, completes allowed s -> n_elems s <> n).
Proof. exact C13_guess_shape_sound_complete_lemma. Qed.
Print Assumptions C13_guess_shape_sound_complete.

(** The corner the claim misses: zero data values. A partially known shape is "completed"
    with a dimension 0, i.e. the result is still not fully defined. *)
Theorem C13_guess_no_data_refuted :
  forall (allowed : shape), is_fully_defined allowed = false ->
    exists s, guess_shape allowed 0 = Ok (Some s) /\ is_fully_defined s = false.
Proof. exact C13_guess_no_data_refuted_lemma. Qed.
Print Assumptions C13_guess_no_data_refuted.

(** is_compatible_with(data) accepts exactly the lengths guess_shape accepts, for a tensor
    without data (including every fully or partly undefined allowed shape) and for an
    allocated tensor whose allowed shape is fully defined and has as many elements. *)
Theorem C13_compatible_data_iff_guess :
  forall (t : tensor) (n : nat),
    is_alloc t = false \/ (is_fully_defined (allowed_shape t) = true /\ n_elems (alloc_shape t) = n_elems (allowed_shape t)) ->
    (t_compat_data t n = true <-> exists s, guess_shape (allowed_shape t) n = Ok (Some s)).
Proof. exact C13_compatible_data_iff_guess_lemma. Qed.
Print Assumptions C13_compatible_data_iff_guess.

(** For an allocated tensor with a partially known allowed shape the two disagree. *)
Theorem C13_compatible_data_guess_differ_refuted :
  exists (w : world nat) t, run 0 0 init [ONew [0; 2]; OAllocateShape 0 [3; 2]] = Ok w /\ alive w 0 t /\
    is_alloc t = true /\ t_compat_data t 4 = false /\ guess_shape (allowed_shape t) 4 = Ok (Some [2; 2]).
Proof. exact C13_compatible_data_guess_differ_refuted_lemma. Qed.
Print Assumptions C13_compatible_data_guess_differ_refuted.

(** loosely_guess_shape: for a non-empty allowed shape the guess has room for the data and
    wastes less than one slice of the known dimensions (nothing is returned exactly when a
    fully defined shape is too small). *)
Theorem C13_loosely_guess_holds_data :
  forall (allowed : shape) (n : nat), allowed <> [] -> 0 < n ->
    exists r, loosely_guess_shape allowed n = Ok r /\
      (forall s, r = Some s -> completes allowed s /\ n <= n_elems s /\
         (is_fully_defined allowed = false -> n_elems s < n + n_known allowed)) /\
      (r = None <-> is_fully_defined allowed = true /\ n_elems allowed < n).
Proof. exact C13_loosely_guess_holds_data_lemma. Qed.
Print Assumptions C13_loosely_guess_holds_data.

(** is_loosely_compatible_with(data): an allocated tensor accepts at most as many elements as
    it has; without data, with an allowed shape and for at least one element, it accepts
    exactly the lengths for which loosely_guess_shape gives a shape. *)
Theorem C13_loosely_compatible :
  forall (t : tensor) (n : nat),
    (is_alloc t = true -> (t_loosely_compat_data t n = true <-> n <= n_elems (alloc_shape t))) /\
    (is_alloc t = false -> allowed_shape t <> [] -> 0 < n ->
      (t_loosely_compat_data t n = true <-> exists s, loosely_guess_shape (allowed_shape t) n = Ok (Some s))).
Proof. exact C13_loosely_compatible_lemma. Qed.
Print Assumptions C13_loosely_compatible.

(** with an undefined allowed shape it writes past the end of an empty vector *)
Theorem C13_loosely_guess_undefined_refuted :
  forall n : nat, loosely_guess_shape [] n = UB.
Proof. exact C13_loosely_guess_undefined_refuted_lemma. Qed.
Print Assumptions C13_loosely_guess_undefined_refuted.

Example C13_nonvacuous :
  guess_shape [2; 0; 0] 6 = Ok (Some [2; 3; 1]) /\ completes [2; 0; 0] [2; 3; 1] /\
  guess_shape [2; 0; 0] 7 = Ok None /\ loosely_guess_shape [2; 0; 0] 7 = Ok (Some [2; 4; 1]) /\
  map (t_loosely_compat_data (mkT None [] [2; 3])) [5; 6; 7] = [true; true; false].
Proof. exact C13_nonvacuous_lemma. Qed.

(** In every reachable state, serializing an allocated tensor and loading the message into
    any other (or the same) live tensor restores both shapes and all data, provided the
    allowed shape has the rank of, and is compatible with, the allocated one. *)
Theorem C14_serialize_round_trip :
  forall (T : Type) (zero junk : T) (ops : list (op T)) (w : world T) i j t tj p,
    run zero junk init ops = Ok w -> owns w i t p -> alive w j tj ->
    length (alloc_shape t) = length (allowed_shape t) ->
    is_compatible_with (alloc_shape t) (allowed_shape t) = Ok true ->
    exists b pr w' t' p', t_expose (w_heap w) t = Ok b /\ t_serialize (w_heap w) t = Ok (Some pr) /\
      step zero junk w (OFromProto j pr) = Ok w' /\
      owns w' j t' p' /\ live w' p' b /\ alloc_shape t' = alloc_shape t /\ allowed_shape t' = allowed_shape t.
Proof. exact C14_serialize_round_trip_lemma. Qed.
Print Assumptions C14_serialize_round_trip.

(** serialize leaves a message for, and only for, an allocated tensor *)
Theorem C14_serialize_iff_allocated :
  forall (T : Type) (zero junk : T) (ops : list (op T)) (w : world T) i t,
    run zero junk init ops = Ok w -> alive w i t ->
    exists o, t_serialize (w_heap w) t = Ok o /\ (o <> None <-> is_alloc t = true).
Proof. exact C14_serialize_iff_allocated_lemma. Qed.
Print Assumptions C14_serialize_iff_allocated.

(** The round trip fails for a tensor whose allowed shape has another rank than its
    allocated shape: loading its own message aborts. *)
Theorem C14_rank_mismatch_refuted :
  exists (w : world nat) t pr, run 0 0 init [ONew []; OAllocateShape 0 [2]] = Ok w /\ alive w 0 t /\
    t_serialize (w_heap w) t = Ok (Some pr) /\ step 0 0 w (OFromProto 0 pr) = Abort.
Proof. exact C14_rank_mismatch_refuted_lemma. Qed.
Print Assumptions C14_rank_mismatch_refuted.

(** Compiled with NDEBUG the buffer is never allocated (the call sits inside assert), so
    loading any non-empty consistent message writes through a null pointer. *)
Theorem C14_ndebug_load_refuted :
  forall (T : Type) (zero junk : T) (h : heap T) (t : tensor) (pr : proto T),
    raw t = None -> p_data pr <> [] -> is_fully_defined (p_alloc pr) = true ->
    is_compatible_with (p_alloc pr) (p_allow pr) = Ok true ->
    t_from_proto true zero junk h t pr = UB.
Proof. exact C14_ndebug_load_refuted_lemma. Qed.
Print Assumptions C14_ndebug_load_refuted.

Example C14_nonvacuous :
  exists (w : world nat) t, run 0 0 init [ONew [2; 2]; OStore 0 1 4; ONew [0]] = Ok w /\ owns w 0 t 0 /\
    t_serialize (w_heap w) t = Ok (Some (mkP [0; 4; 0; 0] [2; 2] [2; 2])) /\ (exists tj, alive w 1 tj) /\
    is_compatible_with (alloc_shape t) (allowed_shape t) = Ok true.
Proof. exact C14_nonvacuous_lemma. Qed.

(** What holds of a malformed message: when both shapes have the same rank and the data is
    not longer than the shape, loading completes; a message rejected for its shapes leaves
    heap, buffer and allocated shape alone. Not so: the allowed shape is overwritten, and
    longer data is not detected (refuted below). *)
Theorem C15_malformed_proto :
  forall (T : Type) (zero junk : T) (ops : list (op T)) (w : world T) i t (pr : proto T),
    run zero junk init ops = Ok w -> alive w i t ->
    length (p_alloc pr) = length (p_allow pr) -> length (p_data pr) <= n_elems (p_alloc pr) ->
    exists w', step zero junk w (OFromProto i pr) = Ok w' /\
      (is_fully_defined (p_alloc pr) = false \/ is_compatible_with (p_alloc pr) (p_allow pr) = Ok false ->
         w_heap w' = w_heap w /\
         exists t', alive w' i t' /\ raw t' = raw t /\ alloc_shape t' = alloc_shape t).
Proof. exact C15_malformed_proto_lemma. Qed.
Print Assumptions C15_malformed_proto.

(** a message whose shapes have different ranks stops the program *)
Theorem C15_rank_mismatch_aborts :
  forall (T : Type) (zero junk : T) (h : heap T) (t : tensor) (pr : proto T),
    length (p_alloc pr) <> length (p_allow pr) -> t_from_proto false zero junk h t pr = Abort.
Proof. exact C15_rank_mismatch_aborts_lemma. Qed.
Print Assumptions C15_rank_mismatch_aborts.

(** Refuted: a message with acceptable shapes but too much data writes past the buffer, in
    every reachable state. *)
Theorem C15_overlong_data_overflows_refuted :
  forall (T : Type) (zero junk : T) (ops : list (op T)) (w : world T) i t (pr : proto T),
    run zero junk init ops = Ok w -> alive w i t ->
    length (p_alloc pr) = length (p_allow pr) -> is_fully_defined (p_alloc pr) = true ->
    is_compatible_with (p_alloc pr) (p_allow pr) = Ok true ->
    n_elems (p_alloc pr) < length (p_data pr) ->
    step zero junk w (OFromProto i pr) = UB.
Proof. exact C15_overlong_data_overflows_refuted_lemma. Qed.
Print Assumptions C15_overlong_data_overflows_refuted.

(** Refuted: a rejected message still replaces the allowed shape. *)
Theorem C15_rejected_proto_changes_shape_refuted :
  exists (w w' : world nat) t t', run 0 0 init [ONew [2; 2]] = Ok w /\ alive w 0 t /\
    step 0 0 w (OFromProto 0 (mkP [1] [3; 3] [4; 4])) = Ok w' /\ alive w' 0 t' /\
    allowed_shape t = [2; 2] /\ allowed_shape t' = [3; 3] /\ alloc_shape t' = [2; 2].
Proof. exact C15_rejected_proto_changes_shape_refuted_lemma. Qed.
Print Assumptions C15_rejected_proto_changes_shape_refuted.

Example C15_nonvacuous :
  exists w : world nat, run 0 0 init [ONew [2; 2]] = Ok w /\ (exists t, alive w 0 t) /\
    is_compatible_with [4; 4] [3; 3] = Ok false /\ n_elems [2] < length [1; 2; 3] /\
    is_compatible_with [2] [2] = Ok true.
Proof. exact C15_nonvacuous_lemma. Qed.

(** Isolation: an operation performed on other tensors leaves a tensor's shape, address
    and data exactly as they were, in every reachable state. *)
Theorem C49_other_tensors_unchanged :
  forall (T : Type) (zero junk : T) (ops : list (op T)) (w w' : world T) (o : op T) j t p b,
    run zero junk init ops = Ok w -> step zero junk w o = Ok w' ->
    ~ touches o j -> owns w j t p -> live w p b ->
    owns w' j t p /\ live w' p b.
Proof. exact C49_other_tensors_unchanged_lemma. Qed.
Print Assumptions C49_other_tensors_unchanged.

(** A copy (constructor or clone) is a new tensor with equal shapes and equal data in its
    own buffer, and the original is untouched. *)
Theorem C49_copy_equals_original :
  forall (T : Type) (zero junk : T) (ops : list (op T)) (w : world T) i t p b,
    run zero junk init ops = Ok w -> owns w i t p -> live w p b ->
    exists w' t' p', step zero junk w (OCopy i false) = Ok w' /\
      owns w' (length (w_ts w)) t' p' /\ live w' p' b /\ p' <> p /\
      alloc_shape t' = alloc_shape t /\ allowed_shape t' = allowed_shape t /\
      owns w' i t p /\ live w' p b.
Proof. exact C49_copy_equals_original_lemma. Qed.
Print Assumptions C49_copy_equals_original.

Example C49_nonvacuous :
  exists w w' : world nat, run 0 0 init [ONew [2]; OStore 0 1 5; OCopy 0 false] = Ok w /\
    live w 1 [0; 5] /\ step 0 0 w (OStore 0 0 8) = Ok w' /\ ~ touches (@OStore nat 0 0 8) 1 /\
    live w' 0 [8; 5] /\ live w' 1 [0; 5].
Proof. exact C49_nonvacuous_lemma. Qed.

(** copy_from(other, s) with s fully defined gives the tensor shape s and the elements of
    other at the coordinates common to both shapes, zero elsewhere; other is unchanged. *)
Theorem C11_copy_from_fits_data :
  forall (T : Type) (zero junk : T) (ops : list (op T)) (w : world T) i ti j tj p b (s : shape),
    run zero junk init ops = Ok w -> alive w i ti -> owns w j tj p -> live w p b -> is_fully_defined s = true ->
    exists w' t' p' b', step zero junk w (OCopyFrom i j s) = Ok w' /\
      owns w' i t' p' /\ live w' p' b' /\ alloc_shape t' = s /\ length b' = n_elems s /\
      (forall c, in_bounds s c -> belongs (alloc_shape tj) c ->
         nth_error b' (offset s c) = nth_error b (offset (alloc_shape tj) c)) /\
      (forall c, in_bounds s c -> ~ belongs (alloc_shape tj) c -> nth_error b' (offset s c) = Some zero) /\
      (i <> j -> owns w' j tj p /\ live w' p b).
Proof. exact C11_copy_from_fits_data_lemma. Qed.
Print Assumptions C11_copy_from_fits_data.

(** A move hands over the very buffer with its data and leaves the source without one. *)
Theorem C49_move_transfers :
  forall (T : Type) (zero junk : T) (ops : list (op T)) (w : world T) i t p b,
    run zero junk init ops = Ok w -> owns w i t p -> live w p b ->
    exists w' t', step zero junk w (OMove i) = Ok w' /\
      owns w' (length (w_ts w)) t' p /\ live w' p b /\
      alloc_shape t' = alloc_shape t /\ allowed_shape t' = allowed_shape t /\
      exists t0, alive w' i t0 /\ is_alloc t0 = false.
Proof. exact C49_move_transfers_lemma. Qed.
Print Assumptions C49_move_transfers.
