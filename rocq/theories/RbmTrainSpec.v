(** What it means to follow a gradient. *)
From Coq Require Import Reals.
From Verif Require Import Common ElemModel GradModel GradSpec.
Local Open Scope R_scope.

(** [y] holds, for every element of variable [v], the partial derivative of the one-element
    result [value] by that element, at the current values [env] of the variables *)
Definition gradient_of (value : (nat -> tens R) -> res (tens R)) (env : nat -> tens R) (v : nat) (y : tens R) : Prop :=
  length (snd y) = length (snd (env v)) /\
  forall k, (k < length (snd (env v)))%nat ->
    derivable_pt_lim (fun x => elem (value (set_elem env v k x)) 0) (at_ (env v) k) (at_ y k).
