(** Specification vocabulary for the updaters. *)
From Coq Require Import Reals.
From Verif Require Import Common EvalModel UpdaterModel.

(** calls that neither assign leaf [m] nor build a node on it, nor clone operations *)
Definition avoids {V} (m : nat) (o : eop V) : Prop :=
  match o with EOp args _ => ~ In m args | EAssign y _ _ => y <> m | EClone _ => False | _ => True end.

(** arithmetic on one real number: learning rate, discount and epsilon *)
Definition real_arith (lr d eps : R) : arith R :=
  mkArith R (fun x => x * lr)%R (fun x => d * x)%R (fun x => (1 - d) * x)%R (fun x => x ^ 2)%R sqrt (fun x => x + eps)%R
    (fun x y => Some (x + y)%R) (fun x y => Some (x / y)%R) (fun x y => Some (x - y)%R).

(** what the comment at gd_utils.cpp:222 announces for the momentum *)
Definition announced {V} (A : arith V) (momentum gradient : V) : option V :=
  add_ A (scale_d A momentum) (scale_1d A (square A gradient)).
