(** Generated by tools/genprops.py from ReactLaws.v: property statements only. *)
From Coq Require Import Permutation.
From Verif Require Import Common ReactModel ReactSpec ReactProofs ReactOps.
From Verif Require Import ReactLaws.

(** No operation of any history throws, aborts or touches a destroyed object. *)
Theorem C27_histories_run : forall ord h c, (forall l, Permutation (ord l) l) -> reach ord h -> legal h c -> exists h', step ord h c = Ok h'.
Proof. exact C27_histories_run_lemma. Qed.
Print Assumptions C27_histories_run.

(** After any history the audience of every subject and the dependencies of every observer
    mirror each other, and neither mentions a destroyed object. *)
Theorem C27_links_mirror : forall ord h, (forall l, Permutation (ord l) l) -> reach ord h -> mirrored h /\ no_dangling h.
Proof. exact C27_links_mirror_lemma. Qed.
Print Assumptions C27_links_mirror.

(** Construction subscribes the new object to exactly its arguments, in order. *)
Theorem C27_construct : forall ord h k deps, (forall l, Permutation (ord l) l) -> reach ord h -> legal h (ONew k deps) ->
  exists h', step ord h (ONew k deps) = Ok h' /\ alive h' (length h) /\ okind (get h' (length h)) = k /\
    (forall i s, dep h' (length h) i s <-> nth_error deps i = Some s) /\
    (forall o i s, o <> length h -> (dep h' o i s <-> dep h o i s)).
Proof. exact C27_construct_lemma. Qed.
Print Assumptions C27_construct.

(** A node pointer that is assigned a node points to that node and to nothing else; cleared, it
    points to nothing. *)
Theorem C27_pointer_assign : forall ord h v s, (forall l, Permutation (ord l) l) -> reach ord h -> legal h (OAssign v s) ->
  exists h', step ord h (OAssign v s) = Ok h' /\ alive h' v /\ forall t, dep h' v 0 t <-> s = Some t.
Proof. exact C27_pointer_assign_lemma. Qed.
Print Assumptions C27_pointer_assign.

Theorem C27_pointer_clear : forall ord h v, (forall l, Permutation (ord l) l) -> reach ord h -> legal h (OClear v) ->
  exists h', step ord h (OClear v) = Ok h' /\ alive h' v /\ forall i t, ~ dep h' v i t.
Proof. exact C27_pointer_clear_lemma. Qed.
Print Assumptions C27_pointer_clear.

(** Copy assignment makes an observer depend on exactly what the other depends on; move
    assignment hands the dependencies over index by index and leaves the other without any. *)
Theorem C27_copy_assign : forall ord h o x, (forall l, Permutation (ord l) l) -> reach ord h -> legal h (OCopy o x) ->
  exists h', step ord h (OCopy o x) = Ok h' /\ alive h' o /\ forall s, (exists i, dep h' o i s) <-> exists i, dep h x i s.
Proof. exact C27_copy_assign_lemma. Qed.
Print Assumptions C27_copy_assign.

Theorem C27_move_assign : forall ord h o x, (forall l, Permutation (ord l) l) -> reach ord h -> legal h (OMove o x) -> o <> x ->
  exists h', step ord h (OMove o x) = Ok h' /\ alive h' o /\ alive h' x /\ (forall i s, ~ dep h' x i s) /\ (forall i s, dep h' o i s <-> dep h x i s).
Proof. exact C27_move_assign_lemma. Qed.
Print Assumptions C27_move_assign.

(** Move construction of a variable or connector: whoever observed the old node observes the
    new one under the same index, and nobody observes the old one. *)
Theorem C27_move_construct : forall ord h x, (forall l, Permutation (ord l) l) -> reach ord h -> legal h (OMoveNew x) ->
  exists h', step ord h (OMoveNew x) = Ok h' /\ (forall o i, ~ dep h' o i x) /\ (forall o i, o <> x -> dep h o i x -> dep h' o i (length h)).
Proof. exact C27_move_construct_lemma. Qed.
Print Assumptions C27_move_construct.

(** Destroying any object at any point of any history ends normally. What is destroyed is exactly:
    the object; whatever computes from something destroyed; and constants and generators that
    thereby lose their last observer. All links among survivors stay, all others go. *)
Theorem C28_destroy : forall ord h x, (forall l, Permutation (ord l) l) -> reach ord h -> alive h x ->
  exists h', step ord h (ODelete x) = Ok h' /\
    (forall y, alive h y -> (dead h (eq x) y -> ophase (get h' y) = Gone) /\ (~ dead h (eq x) y -> alive h' y)) /\
    (forall y, alive h' y -> alive h y /\ ~ dead h (eq x) y) /\
    (forall o i s, dep h' o i s <-> dep h o i s /\ ~ dead h (eq x) o /\ ~ dead h (eq x) s) /\
    (forall s o i, link h' s o i <-> link h s o i /\ ~ dead h (eq x) o /\ ~ dead h (eq x) s).
Proof. exact C28_destroy_lemma. Qed.
Print Assumptions C28_destroy.

Theorem C28_any_order : forall ord l h, (forall l, Permutation (ord l) l) -> reach ord h ->
  exists h', destroy_each ord l h = Ok h' /\ reach ord h' /\ (forall x, In x l -> ~ alive h' x) /\ (forall x, alive h' x -> alive h x).
Proof. exact C28_any_order_lemma. Qed.
Print Assumptions C28_any_order.

(** An observer that ends in a null dependency (first argument set, second null) cannot be destroyed:
    the removal of the first pops the second too and the destructor's next removal throws. *)
Theorem C28_null_tail_refuted : forall ord, exists h0 h1,
  construct [mkobj KLeaf Live [] []] KConn [0] = Ok h0 /\ add_dependency h0 1 None = Ok h1 /\ delete ord 5 h1 1 = Abort.
Proof. exact C28_null_tail_refuted_lemma. Qed.
Print Assumptions C28_null_tail_refuted.

(** Moving a generator that somebody observes destroys it during the move: the object is used
    after its destruction. *)
Theorem C27_move_generator_refuted : exists h, reach (fun l => l) h /\ alive h 1 /\ okind (get h 1) = KGen /\
  move_new (fun l => l) (delete (fun l => l) 9) h 1 = UB.
Proof. exact C27_move_generator_refuted_lemma. Qed.
Print Assumptions C27_move_generator_refuted.

(** Copy-assigning a generator from the generator that it alone observes destroys the source in
    the middle of the copy. *)
Theorem C27_copy_generator_refuted : exists h, reach (fun l => l) h /\ alive h 1 /\ alive h 2 /\ okind (get h 1) = KGen /\ okind (get h 2) = KGen /\
  copy_helper (delete (fun l => l) 9) h 2 1 = UB.
Proof. exact C27_copy_generator_refuted_lemma. Qed.
Print Assumptions C27_copy_generator_refuted.

Example C27_nonvacuous : exists h, reach (fun l => l) h /\ demo_heap = Ok h /\ dep h 3 1 2 /\ link h 2 3 1 /\ dep h 4 0 3 /\ legal h (OAssign 4 (Some 2)) /\ legal h (OMove 2 3).
Proof. exact C27_nonvacuous_lemma. Qed.

(** destroying the variable of that history takes the sum, the product and the constant with it,
    and empties both pointers *)
Example C28_nonvacuous : exists h h', demo_heap = Ok h /\ step (fun l => l) h (ODelete 0) = Ok h' /\
  map (fun o => (ophase o, odeps o)) h' = [(Gone, []); (Gone, []); (Gone, []); (Gone, []); (Live, []); (Live, [])].
Proof. exact C28_nonvacuous_lemma. Qed.
