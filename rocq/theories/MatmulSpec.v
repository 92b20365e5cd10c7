(** Specification of matrix products. *)
From Verif Require Import Common ShapeSpec.

(** sum of [f 0 .. f (n-1)] *)
Fixpoint sumn {T} (zero : T) (add : T -> T -> T) (f : nat -> T) (n : nat) : T :=
  match n with
  | 0 => zero
  | S n' => add (sumn zero add f n') (f n')
  end.

(** the dimensions beyond the second of two shapes agree, up to trailing ones of one of them;
    [beyond] are those dimensions *)
Definition same_batch (al bl beyond : list nat) : Prop :=
  exists k j, skipn 2 al = beyond ++ repeat 1 k /\ skipn 2 bl = beyond ++ repeat 1 j /\ (k = 0 \/ j = 0).

(** element of a tensor (shape and data) at a coordinate *)
Definition elem {T} (zero : T) (s : list nat) (data : list T) (c : list nat) : T := nth (offset s c) data zero.
