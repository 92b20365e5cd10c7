(** Generated by tools/genprops.py from TrainGraphLaws.v: property statements only. *)
From Coq Require Import Lia Permutation.
From Verif Require Import Common EvalModel EvalSpec EvalProofs EvalLaws UpdaterModel UpdaterSpec UpdaterLaws TrainModel TrainSpec TrainProofs.
From Verif Require Import TrainGraphLaws.

(** One call of train, whatever happened before. Let every update be of a different variable
    and its node be computed from an operation that the error is computed from too. If the
    call returns, every variable is changed by its own node's value for the new inputs and the
    variables' values before the call - as if all updates happened at once, in whatever
    order they are -, no other leaf but the two placeholders changes, the error is not
    frozen, and the state is again one of the kind assumed. *)
Theorem C51_simultaneous : forall V compat ord top A s train_in expected error updates x y s',
  @valid_order V ord -> valid_top top -> history compat ord top s ->
  NoDup (map fst updates) -> (forall w n, In (w, n) updates -> connected s n error) ->
  net_train compat ord top A s train_in expected error updates x y = Done s' tt ->
  exists s0, history compat ord top s0 /\ fed s s0 train_in expected x y /\
    (forall w n, In (w, n) updates -> exists d old new, denotes s0 n (Some d) /\ val s0 w = Some old /\ sub_ A old d = Some new /\ val s' w = Some new) /\
    (forall v, leaf s v -> ~ In v (map fst updates) -> val s' v = val s0 v) /\
    nodes s' = nodes s /\ is_frozen s' error = false /\ history compat ord top s'.
Proof. exact C51_simultaneous_lemma. Qed.
Print Assumptions C51_simultaneous.

(** Refuted without the common operation: when the nodes of the updates are in no common graph
    with the error - the gradients of a * b, built on the variables alone -, freezing the error
    does not keep them. Both variables are 8 and both nodes 4; the first variable becomes 4, the
    second node is computed anew and gives 2, and the second variable becomes 6. *)
Theorem C51_unconnected_refuted : exists (A : arith nat) (s s' : estate nat),
  history (fun _ _ => true) audience least s /\ NoDup (map fst [(0, 5); (1, 6)]) /\
  (exists f, operation s 4 [0; 1] f) /\ denotes s 5 (Some 4) /\ denotes s 6 (Some 4) /\ (forall a b, sub_ A a b = Some (a - b)) /\
  net_train (fun _ _ => true) audience least A s 2 3 4 [(0, 5); (1, 6)] 1 1 = Done s' tt /\ val s 0 = Some 8 /\ val s 1 = Some 8 /\
  val s' 0 = Some 4 /\ val s' 1 = Some 6.
Proof. exact C51_unconnected_refuted_lemma. Qed.
Print Assumptions C51_unconnected_refuted.

(** c = a + b, error c * c, updates by c: a and b are decreased by the same value, whatever the
    order *)
Example C51_simultaneous_nonvacuous : forall l, l = [(0, 4); (1, 4)] \/ l = [(1, 4); (0, 4)] -> exists (A : arith nat) (s s' : estate nat),
  history (fun _ _ => true) audience least s /\ NoDup (map fst l) /\ (forall w n, In (w, n) l -> connected s n 5) /\ (forall a b, sub_ A a b = Some (a - b)) /\
  net_train (fun _ _ => true) audience least A s 2 3 5 l 1 1 = Done s' tt /\ val s 0 = Some 20 /\ val s 1 = Some 15 /\ val s' 0 = Some 3 /\ val s' 1 = Some 0.
Proof. exact C51_simultaneous_nonvacuous_lemma. Qed.
