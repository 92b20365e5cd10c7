(** What networks of fully connected layers compute. *)
From Verif Require Import Common MatmulSpec.

Section Spec.
Context {T : Type} (zero : T) (add mul : T -> T -> T).

(** a fully connected layer: column x of row y of the output is the sum over the n inputs of
    input times weight, plus the bias of x. [W x q] is the weight from input q to output x. *)
Definition dense (n : nat) (W : nat -> nat -> T) (b : nat -> T) (h : nat -> nat -> T) (x y : nat) : T :=
  add (sumn zero add (fun q => mul (h q y) (W x q)) n) (b x).

(** layers one after the other: size, weights, biases and activation function of each *)
Record layer := mkLayer { size : nat; weights : nat -> nat -> T; biases : nat -> T; activation : T -> T }.
Fixpoint net_value (n : nat) (ls : list layer) (h : nat -> nat -> T) : nat -> nat -> T :=
  match ls with
  | [] => h
  | L :: rest => net_value (size L) rest (fun x y => activation L (dense n (weights L) (biases L) h x y))
  end.
(** size of the output *)
Fixpoint out_size (n : nat) (ls : list layer) : nat := match ls with [] => n | L :: rest => out_size (size L) rest end.
End Spec.
Arguments mkLayer {T}.
Arguments size {T}.
Arguments weights {T}.
Arguments biases {T}.
Arguments activation {T}.
