(** What a deep belief network computes and what its fine tuning would descend. *)
From Coq Require Import Reals.
From Verif Require Import Common MatmulSpec ElemModel MatrixSpec MlpSpec RbmSpec.
Local Open Scope R_scope.
Notation Sum := (sumn 0 Rplus).

(** the layers, from the parameters in the order get_variables lists them: weights, hidden
    biases and visible biases of every restricted Boltzmann machine, then weights and biases
    of the last layer. Hidden units pass on the logistic function of what they sum up. *)
Fixpoint belief_layers (env : nat -> tens R) (vars sizes : list nat) : list layer :=
  match sizes, vars with
  | [c], [w; b] => [mkLayer c (entry 0 c (env w)) (fun x => nth x (snd (env b)) 0) (fun x => x)]
  | c :: sizes, w :: hidden_bias :: visible_bias :: vars =>
    mkLayer c (entry 0 c (env w)) (fun x => nth x (snd (env hidden_bias)) 0) logistic :: belief_layers env vars sizes
  | _, _ => []
  end.
(** the parameters that prop_up does not use *)
Fixpoint visible_biases (vars : list nat) : list nat :=
  match vars with w :: hb :: vb :: rest => vb :: visible_biases rest | _ => [] end.

(** number of elements of the output for a batch of b samples *)
Definition n_out (sizes : list nat) (b : nat) : nat := (last sizes 0%nat * b)%nat.
(** element i of what the last layer sums up, for the input t of n columns *)
Definition logit (env : nat -> tens R) (vars sizes : list nat) (n : nat) (t : tens R) (i : nat) : R :=
  let c := last sizes 0%nat in net_value 0 Rplus Rmult n (belief_layers env vars sizes) (entry 0 n t) (i mod c)%nat (i / c)%nat.
(** the share of element i in the exponentials of m elements *)
Definition share (z : nat -> R) (m i : nat) : R := exp (z i) / Sum (fun j => exp (z j)) m.
(** minus the mean of the logarithms of the shares *)
Definition log_cost (z : nat -> R) (m : nat) : R := - (Sum (fun i => ln (share z m i)) m / INR m).
