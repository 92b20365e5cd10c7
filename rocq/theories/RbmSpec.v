(** What a restricted Boltzmann machine assigns to a visible vector. *)
From Coq Require Import Reals.
From Verif Require Import Common MatmulSpec.
Local Open Scope R_scope.

(** sum of f 0 .. f (n-1) *)
Notation Sum f n := (sumn 0 Rplus f n).

(** free energy of the visible vector v (n units) with h hidden units: weights W (hidden,
    visible), hidden biases hb, visible biases vb *)
Definition energy (n h : nat) (W : nat -> nat -> R) (hb vb v : nat -> R) : R :=
  - (Sum (fun j => ln (1 + exp (Sum (fun q => v q * W j q) n + hb j))) h + Sum (fun q => v q * vb q) n).

(** mean of f over a batch *)
Definition mean (b : nat) (f : nat -> R) : R := Sum f b / INR b.

Definition logistic (x : R) : R := 1 / (1 + exp (- x)).

(** v with unit 0 flipped *)
Definition flip0 (v : nat -> R) (q : nat) : R := if (q =? 0)%nat then 1 - v q else v q.

(** log-likelihood of the visible vector x under independent units that are 1 with probability p *)
Definition loglik (n : nat) (x p : nat -> R) : R := Sum (fun q => x q * ln (p q) + (1 - x q) * ln (1 - p q)) n.

(** all vectors of h binary hidden units *)
Fixpoint configs (h : nat) : list (nat -> R) :=
  match h with
  | O => [fun _ => 0]
  | S k => flat_map (fun c => [c; fun j => if (j =? k)%nat then 1 else c j]) (configs k)
  end.
(** joint energy of visible and hidden units *)
Definition joint (n h : nat) (W : nat -> nat -> R) (hb vb v c : nat -> R) : R :=
  - (Sum (fun j => Sum (fun q => v q * W j q) n * c j) h + Sum (fun j => hb j * c j) h + Sum (fun q => v q * vb q) n).

(** probability of an event when each element of the list l has the given weight *)
Definition prob {A : Type} (l : list A) (weight : A -> R) (event : A -> bool) : R :=
  fold_right Rplus 0 (map weight (filter event l)) / fold_right Rplus 0 (map weight l).
(** unit i is 1 *)
Definition is_on (i : nat) (c : nat -> R) : bool := if Req_EM_T (c i) 1 then true else false.
(** f 0 * ... * f (n-1) *)
Definition Prod (f : nat -> R) (n : nat) : R := fold_right Rmult 1 (map f (seq 0 n)).
