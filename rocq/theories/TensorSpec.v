(** Specification vocabulary for tensor histories. *)
From Verif Require Import Common ShapeModel ShapeSpec TensorModel.

(** tensor number [i] is alive and its buffer is at address [p] *)
Definition owns {T} (w : world T) (i : nat) (t : tensor) (p : nat) : Prop :=
  nth_error (w_ts w) i = Some (Some t) /\ raw t = Some p.

(** address [p] holds the live buffer [b] *)
Definition live {T} (w : world T) (p : nat) (b : list T) : Prop :=
  nth_error (w_heap w) p = Some (Some b).

(** tensor number [i] is alive *)
Definition alive {T} (w : world T) (i : nat) (t : tensor) : Prop :=
  nth_error (w_ts w) i = Some (Some t).

(** every tensor has been destroyed *)
Definition all_destroyed {T} (w : world T) : Prop := forall i t, ~ alive w i t.

(** what the caller must respect: only live objects, stores inside the buffer, and
    protos whose two shapes have the same rank and whose data is not longer than the
    allocated shape *)
Definition client_ok {T} (w : world T) (o : op T) : Prop :=
  match o with
  | ONew _ | ONewScalar _ => True
  | OCopy i _ | OMove i | OSetShape i _ | OAllocate i | OAllocateShape i _
  | ODeallocate i | ODestroy i => exists t, alive w i t
  | OAssign i j | OAssignMove i j | OCopyFrom i j _ => (exists t, alive w i t) /\ (exists t, alive w j t)
  | OStore i k _ => exists t, alive w i t /\ raw t <> None /\ k < n_elems (alloc_shape t)
  | OFromProto i pr => (exists t, alive w i t) /\ length (p_alloc pr) = length (p_allow pr) /\
       length (p_data pr) <= n_elems (p_alloc pr)
  end.

(** worlds reachable by steps all satisfying [P] *)
Inductive reach {T} (zero junk : T) (P : world T -> op T -> Prop) : world T -> Prop :=
| reach_init : reach zero junk P init
| reach_step w o w' : reach zero junk P w -> P w o -> step zero junk w o = Ok w' -> reach zero junk P w'.

(** set_shape only with fully defined shapes or shapes of the allocated rank, and
    from_proto only with consistent protos *)
Definition gentle {T} (w : world T) (o : op T) : Prop :=
  match o with
  | OSetShape i s => forall t, alive w i t -> is_alloc t = true ->
       is_fully_defined s = true \/ length s = length (alloc_shape t)
  | OFromProto i pr => is_fully_defined (p_alloc pr) = true /\
       is_compatible_with (p_alloc pr) (p_allow pr) = Ok true
  | _ => True
  end.

(** the tensor that an operation is called on (and may change), or takes by move *)
Definition touches {T} (o : op T) (i : nat) : Prop :=
  match o with
  | ONew _ | ONewScalar _ | OCopy _ _ => False
  | OMove k | OSetShape k _ | OAllocate k | OAllocateShape k _ | ODeallocate k
  | OStore k _ _ | OFromProto k _ | ODestroy k | OAssign k _ | OCopyFrom k _ _ => i = k
  | OAssignMove k l => i = k \/ i = l
  end.

(** [s] fills the unknown dimensions of [allowed] *)
Definition completes (allowed s : shape) : Prop :=
  defined s /\ match allowed with
               | [] => length s = 1
               | _ => Forall2 (fun a d => a = d \/ a = 0) allowed s
               end.
