(** Matrices as tensors. *)
From Verif Require Import Common ShapeModel ElemModel.

(** a tensor that holds a matrix of c columns and r rows: shape [c; r], or any one-element
    matrix that elementwise operations have given shape [1] *)
Definition matrix {T} (c r : nat) (t : tens T) : Prop :=
  0 < c /\ 0 < r /\ length (snd t) = c * r /\ (fst t = [c; r] \/ (c * r = 1 /\ fst t = [1])).
(** its entry in column x and row y *)
Definition entry {T} (zero : T) (c : nat) (t : tens T) (x y : nat) : T := nth (x + c * y) (snd t) zero.
(** a vector of c elements *)
Definition vector {T} (c : nat) (t : tens T) : Prop := 0 < c /\ fst t = [c] /\ length (snd t) = c.
