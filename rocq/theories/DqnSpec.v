(** Specification vocabulary for dq_net. *)
From Coq Require Import Reals Sorting.Permutation.
From Verif Require Import Common ShapeModel ElemModel DqnModel.
Local Open Scope R_scope.

(** the experiences passed to store, in order of the calls *)
Fixpoint stored (ops : list dop) : list exp_batch :=
  match ops with
  | [] => []
  | DStore e :: ops => e :: stored ops
  | _ :: ops => stored ops
  end.

(** the elements of a list at the positions 0, k, 2k, ... *)
Definition every {A} (k : nat) (l : list A) : list A :=
  map snd (filter (fun p => (fst p mod k =? 0)%nat) (combine (seq 0 (length l)) l)).

(** the experiences that store keeps: those of every store_interval-th call *)
Definition kept (p : dqn_param) (ops : list dop) : list exp_batch := every (store_interval p) (stored ops).

(** a vector with 1 at position [a] and 0 elsewhere *)
Definition one_hot (n a : nat) : list R := map (fun i => if (i =? a)%nat then 1 else 0) (seq 0 n).

(** a history whose arguments are legitimate: each shuffle produces a permutation of the
    positions of the memory *)
Definition shuffle_of (n : nat) (indices : list nat) : Prop := Permutation indices (seq 0 n).

(** the number of actions taken in a history *)
Definition is_action (o : dop) : bool := match o with DAction _ _ _ => true | _ => false end.
Definition n_actions (ops : list dop) : nat := length (filter is_action ops).

(** values of a network's variables: same shapes and as many elements as the shape says *)
Definition well_shaped (vars : list (tens R)) : Prop :=
  Forall (fun t => is_fully_defined (fst t) = true /\ length (snd t) = n_elems (fst t)) vars.
Definition same_shapes (a b : list (tens R)) : Prop := map fst a = map fst b.

(** element [k] of variable [i] *)
Definition param (vars : list (tens R)) (i k : nat) : option R :=
  match nth_error vars i with Some t => nth_error (snd t) k | None => None end.
