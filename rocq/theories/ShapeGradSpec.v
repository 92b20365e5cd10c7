(** Hypotheses of the laws on gradients through shape operations. *)
From Coq Require Import Reals.
From Verif Require Import Common ShapeModel ElemModel RealNum GradModel GradSpec.
Local Open Scope R_scope.

(** what all the laws assume: an elementwise expression that depends on a variable of the
    full shape, differentiable at every position *)
Definition proper (s : shape) (env : nat -> tens R) (w : nat) (e : @expr R) : Prop :=
  is_fully_defined s = true /\ n_elems s <> 1%nat /\ leaves_fit s env e /\ has_leaf w e = true /\
  fst (env w) = s /\ length (snd (env w)) = n_elems s /\ (forall i, (i < n_elems s)%nat -> regular i (fun v => at_ (env v) i) e).
