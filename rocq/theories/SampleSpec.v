(** What is required of draws from a binomial distribution. *)
From Coq Require Import Reals.
From Verif Require Import Common.
Local Open Scope R_scope.

(** of n trials that succeed with probability p, some number succeeds: none for p = 0, all for p = 1 *)
Definition binomial (draw : nat -> R -> R -> R) : Prop :=
  forall i n p, 0 <= p <= 1 -> exists j, (j <= n)%nat /\ draw i (INR n) p = INR j /\ (p = 0 -> j = 0%nat) /\ (p = 1 -> j = n).

(** Gibbs sampling of n visible and h hidden units, started with the hidden states H0 of the
    samples of a batch; [up v j] is the probability of hidden unit j given the visible units v,
    [down c q] that of visible unit q given the hidden units c. In round i the visible units are
    drawn by [draw (s + 2 * i)], then the hidden ones by [draw (s + 2 * i + 1)], each unit of
    each sample by itself. *)
Fixpoint hidden_state (n h : nat) (up down : (nat -> R) -> nat -> R) (draw : nat -> nat -> R -> R -> R) (s : nat) (H0 : nat -> nat -> R) (i : nat) : nat -> nat -> R :=
  match i with
  | O => H0
  | S i => fun j y =>
    draw (s + 2 * i + 1)%nat (j + h * y)%nat 1
      (up (fun q => draw (s + 2 * i)%nat (q + n * y)%nat 1 (down (fun j => hidden_state n h up down draw s H0 i j y) q)) j)
  end.
Definition visible_state n h up down draw s H0 (i q y : nat) : R :=
  draw (s + 2 * i)%nat (q + n * y)%nat 1 (down (fun j => hidden_state n h up down draw s H0 i j y) q).
