(** Generated by tools/genprops.py from TensorLaws.v: property statements only. *)
From Verif Require Import Common ShapeModel ShapeSpec ShapeProofs FitModel FitProofs TensorModel TensorSpec TensorProofs.
From Verif Require Import TensorLaws.

(** fit_toshape never leaves its buffers, terminates, copies the common sub-block and
    zeroes the rest; memory past the output shape is untouched. *)
Theorem C08_fit_toshape :
  forall (T : Type) (zero : T) (dest src : list T) (outs ins : shape),
    is_fully_defined outs = true -> is_fully_defined ins = true ->
    n_elems outs <= length dest -> n_elems ins <= length src ->
    exists dest', fit_toshape zero dest outs src ins = Ok dest' /\
      length dest' = length dest /\
      (forall c, in_bounds outs c -> belongs ins c ->
         offset ins c < n_elems ins /\ nth_error dest' (offset outs c) = nth_error src (offset ins c)) /\
      (forall c, in_bounds outs c -> ~ belongs ins c -> nth_error dest' (offset outs c) = Some zero) /\
      (forall j, n_elems outs <= j -> nth_error dest' j = nth_error dest j).
Proof. exact C08_fit_toshape_lemma. Qed.
Print Assumptions C08_fit_toshape.

(** fitting to the same shape is a plain copy *)
Theorem C08_fit_same_shape :
  forall (T : Type) (zero : T) (dest src : list T) (s : shape),
    is_fully_defined s = true -> length dest = n_elems s -> length src = n_elems s ->
    fit_toshape zero dest s src s = Ok src.
Proof. exact C08_fit_same_shape_lemma. Qed.
Print Assumptions C08_fit_same_shape.

(** an undefined shape is rejected by the assertion *)
Theorem C08_fit_undefined_aborts :
  forall (T : Type) (zero : T) (dest src : list T) (outs ins : shape),
    is_fully_defined outs = false \/ is_fully_defined ins = false ->
    fit_toshape zero dest outs src ins = Abort.
Proof. exact C08_fit_undefined_aborts_lemma. Qed.
Print Assumptions C08_fit_undefined_aborts.

Example C08_nonvacuous :
  fit_toshape 0 (repeat 7 6) [2; 3] [1; 2; 3; 4; 5; 6] [3; 2] = Ok [1; 2; 4; 5; 0; 0] /\
  belongs [3; 2] [1; 1] /\ in_bounds [2; 3] [1; 1] /\ ~ belongs [3; 2] [1; 2] /\ in_bounds [2; 3] [1; 2].
Proof. exact C08_nonvacuous_lemma. Qed.

(** In every reachable state a tensor that has a buffer has a fully defined allocated
    shape and the buffer is live and has exactly n_elems cells. *)
Theorem C09_buffer_matches_shape :
  forall (T : Type) (zero junk : T) (ops : list (op T)) (w : world T),
    run zero junk init ops = Ok w ->
    forall i t p, owns w i t p ->
      is_fully_defined (alloc_shape t) = true /\
      exists b, live w p b /\ length b = n_elems (alloc_shape t) /\
        get_shape t = alloc_shape t /\ t_expose (w_heap w) t = Ok b.
Proof. exact C09_buffer_matches_shape_lemma. Qed.
Print Assumptions C09_buffer_matches_shape.

(** In every reachable state n_elems is the size of the buffer, 0 without one, and then expose
    asserts and the shape is the allowed one. *)
Theorem C09_n_elems :
  forall (T : Type) (zero junk : T) (ops : list (op T)) (w : world T),
    run zero junk init ops = Ok w ->
    forall i t, alive w i t ->
      (forall p b, raw t = Some p -> live w p b -> t_n_elems t = length b) /\
      (raw t = None -> t_n_elems t = 0 /\ get_shape t = allowed_shape t /\ t_expose (w_heap w) t = Abort).
Proof. exact C09_n_elems_lemma. Qed.
Print Assumptions C09_n_elems.

(** The claim that the allocated shape always stays compatible with the allowed shape is
    false: set_shape with a partially known shape of another rank changes the allowed
    shape, then fails to reallocate and keeps the old buffer. *)
Theorem C09_alloc_compatible_with_allowed_refuted :
  exists (ops : list (op nat)) (w : world nat) (t : tensor),
    run 0 0 init ops = Ok w /\ alive w 0 t /\ is_alloc t = true /\
    is_compatible_with (alloc_shape t) (allowed_shape t) = Ok false.
Proof. exact C09_alloc_compatible_with_allowed_refuted_lemma. Qed.
Print Assumptions C09_alloc_compatible_with_allowed_refuted.

(** The remaining part of the claim: it does hold along every history in which set_shape
    on an allocated tensor is given a fully defined shape or one of the same rank, and
    from_proto a consistent message. *)
Theorem C09_alloc_compatible_when_gentle :
  forall (T : Type) (zero junk : T) (w : world T), reach zero junk gentle w ->
    forall i t, alive w i t -> is_alloc t = true ->
      is_compatible_with (alloc_shape t) (allowed_shape t) = Ok true.
Proof. exact C09_alloc_compatible_when_gentle_lemma. Qed.
Print Assumptions C09_alloc_compatible_when_gentle.

Example C09_nonvacuous :
  exists w : world nat, run 0 9 init [ONew [2; 2]; OStore 0 1 5; OSetShape 0 [3; 1]; OCopy 0 false] = Ok w /\
    exists t, owns w 1 t 2 /\ alloc_shape t = [3; 1] /\ live w 2 [9; 5; 0].
Proof. exact C09_nonvacuous_lemma. Qed.

Example C09_nonvacuous_gentle :
  exists w : world nat, reach 0 9 gentle w /\ exists t, alive w 0 t /\ is_alloc t = true /\ alloc_shape t = [3; 2].
Proof. exact C09_nonvacuous_gentle_lemma. Qed.

(** In every reachable state each live buffer belongs to exactly one live tensor, and when
    all tensors are destroyed no live buffer is left. *)
Theorem C10_ownership_no_leak :
  forall (T : Type) (zero junk : T) (ops : list (op T)) (w : world T),
    run zero junk init ops = Ok w ->
    (forall p b, live w p b -> exists! i, exists t, owns w i t p) /\
    (forall i t p, owns w i t p -> exists b, live w p b) /\
    (all_destroyed w -> forall p b, ~ live w p b).
Proof. exact C10_ownership_no_leak_lemma. Qed.
Print Assumptions C10_ownership_no_leak.

(** No reachable state can be driven to a double release, a use after release or an
    out-of-bounds access by a client that uses live objects and stores in range: every
    such operation completes normally. *)
Theorem C10_no_double_free_no_use_after_free :
  forall (T : Type) (zero junk : T) (ops : list (op T)) (w : world T) (o : op T),
    run zero junk init ops = Ok w -> client_ok w o ->
    exists w', step zero junk w o = Ok w'.
Proof. exact C10_no_double_free_no_use_after_free_lemma. Qed.
Print Assumptions C10_no_double_free_no_use_after_free.

Example C10_nonvacuous :
  exists w : world nat,
    run 0 0 init [ONew [2]; OCopy 0 false; OMove 0; OAssign 0 1; OAssignMove 1 2;
                  ODestroy 0; ODestroy 1; ODestroy 2] = Ok w /\
    w_ts w = [None; None; None] /\ w_heap w = [None; None; None] /\ client_ok w (ONew [3]) /\
    (exists w1 : world nat, run 0 0 init [ONew [2]; OCopy 0 false] = Ok w1 /\ live w1 1 [0; 0] /\ client_ok w1 (OAssign 0 1)).
Proof. exact C10_nonvacuous_lemma. Qed.
