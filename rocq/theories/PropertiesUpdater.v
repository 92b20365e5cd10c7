(** Generated by tools/genprops.py from UpdaterLaws.v: property statements only. *)
From Coq Require Import Permutation Reals Lra.
From Verif Require Import Common EvalModel EvalSpec EvalProofs EvalLaws UpdaterModel UpdaterSpec UpdaterProofs.
From Verif Require Import UpdaterLaws.

(** Vanilla gradient descent. In any history without clones, silent assignments and exceptions, let
    [n] be the node built for the gradient node [g]. Calling the updater of [w] (with notification)
    subtracts from [w] the learning rate times the value of the gradient for the current leaf
    values, changes no other leaf, and leaves the graph in a state of the same kind, so
    that this holds for the next call too. *)
Theorem C38_vgb : forall V compat ord top A ops s g w n s' r,
  @valid_order V ord -> valid_top top ->
  run compat ord top einit ops = Done s tt -> Forall plain ops -> Forall no_freeze ops ->
  operation s n [g] (fun1 (scale_lr A)) -> leaf s w ->
  vgb_call compat ord top A s w n true = Done s' r ->
  (exists gv y z, denotes s g (Some gv) /\ val s w = Some y /\ sub_ A y (scale_lr A gv) = Some z /\ val s' w = Some z) /\
  (forall x, leaf s x -> x <> w -> val s' x = val s x) /\ nodes s' = nodes s /\
  exists ops', run compat ord top einit ops' = Done s' tt /\ Forall plain ops' /\ Forall no_freeze ops'.
Proof. exact C38_vgb_lemma. Qed.
Print Assumptions C38_vgb.

(** RMSprop. Whatever happens to the graph between the calls (as long as the momentum variable, which
    the updater owns, is left alone), each call sets the momentum to
    discount * 1 + (1 - discount) * gradient^2, 1 being its initial value - not its last one - and
    subtracts learning_rate * gradient / (sqrt(momentum) + epsilon) from the variable. *)
Theorem C38_rmsprop : forall V compat ord top A ops s g w one s1 us s2 s3 r,
  @valid_order V ord -> valid_top top ->
  run compat ord top einit ops = Done s tt -> Forall plain ops -> Forall no_freeze ops ->
  leaf s w -> g < length (nodes s) ->
  let n := length (nodes s) in
  run compat ord top s (rms_ops A n g one) = Done s1 tt ->
  Forall (fun u => match u with UOp o => plain o /\ no_freeze o /\ avoids n o | UCall => True end) us ->
  rms_run compat ord top A n w s1 us = Done s2 tt ->
  rms_call compat ord top A s2 n w true = Done s3 r ->
  exists gv mz st y z, denotes s2 g (Some gv) /\
    add_ A (scale_d A one) (scale_1d A (square A gv)) = Some mz /\ val s3 n = Some mz /\
    div_ A (scale_lr A gv) (add_eps A (sqrt_ A mz)) = Some st /\
    val s2 w = Some y /\ sub_ A y st = Some z /\ val s3 w = Some z /\
    forall x, leaf s2 x -> x <> w -> x <> n -> val s3 x = val s2 x.
Proof. exact C38_rmsprop_lemma. Qed.
Print Assumptions C38_rmsprop.

(** hypotheses are met: w = 2, gradient w, two calls with an evaluation in between *)
Example C38_rmsprop_nonvacuous : forall lr d eps : R,
  let A := real_arith lr d eps in
  let ops := [ELeaf (Some 2%R); EOp [0] (fun1 (fun x => x))] in
  let us := [UCall; UOp (EEval 1)] in
  exists s s1 s2 s3 r, run (fun _ _ => true) audience least einit ops = Done s tt /\ Forall plain ops /\ Forall no_freeze ops /\
    leaf s 0 /\ 1 < length (nodes s) /\ length (nodes s) = 2 /\
    run (fun _ _ => true) audience least s (rms_ops A 2 1 1%R) = Done s1 tt /\
    Forall (fun u => match u with UOp o => plain o /\ no_freeze o /\ avoids 2 o | UCall => True end) us /\
    rms_run (fun _ _ => true) audience least A 2 0 s1 us = Done s2 tt /\
    rms_call (fun _ _ => true) audience least A s2 2 0 true = Done s3 r /\
    val s2 2 = Some (d * 1 + (1 - d) * 2 ^ 2)%R /\
    val s2 0 = Some (2 - 2 * lr / (sqrt (d * 1 + (1 - d) * 2 ^ 2) + eps))%R /\
    val s3 2 = Some (d * 1 + (1 - d) * (2 - 2 * lr / (sqrt (d * 1 + (1 - d) * 2 ^ 2) + eps)) ^ 2)%R.
Proof. exact C38_rmsprop_nonvacuous_lemma. Qed.

(** Refuted: the momentum does not accumulate. For every learning rate, epsilon and discount
    factor other than 0 and 1, after a first call the second call does not set the momentum to
    discount * momentum + (1 - discount) * gradient^2. *)
Theorem C38_rmsprop_refuted : forall lr d eps : R, d <> 0%R -> d <> 1%R ->
  let A := real_arith lr d eps in
  exists ops s s1 s2 s3 r m1 g, run (fun _ _ => true) audience least einit ops = Done s tt /\
    run (fun _ _ => true) audience least s (rms_ops A (length (nodes s)) 1 1%R) = Done s1 tt /\
    rms_run (fun _ _ => true) audience least A (length (nodes s)) 0 s1 [UCall] = Done s2 tt /\
    rms_call (fun _ _ => true) audience least A s2 (length (nodes s)) 0 true = Done s3 r /\
    val s2 (length (nodes s)) = Some m1 /\ denotes s2 1 (Some g) /\ val s3 (length (nodes s)) <> announced A m1 g.
Proof. exact C38_rmsprop_refuted_lemma. Qed.
Print Assumptions C38_rmsprop_refuted.

(** Refuted: updaters called one after the other do not use the gradients at the point the calls
    started from. With loss a * b, a = b = 8 and learning rate 1 / 2 (here: halving), simultaneous descent would leave b
    at 4, but it goes to 6. *)
Theorem C38_simultaneous_refuted : exists (A : arith nat) ops (s s' : estate nat),
  run (fun _ _ => true) audience least einit ops = Done s tt /\ Forall plain ops /\ Forall no_freeze ops /\
  operation s 4 [2] (fun1 (scale_lr A)) /\ operation s 5 [3] (fun1 (scale_lr A)) /\
  denotes s 3 (Some 8) /\ val s 1 = Some 8 /\ sub_ A 8 (scale_lr A 8) = Some 4 /\
  vgb_calls (fun _ _ => true) audience least A s [(0, 4); (1, 5)] = Done s' tt /\ val s' 0 = Some 4 /\ val s' 1 = Some 6.
Proof. exact C38_simultaneous_refuted_lemma. Qed.
Print Assumptions C38_simultaneous_refuted.

(** Updates are computed for exactly the variables among the leaves of the root that are not ignored;
    ignore_subtree ignores the variables below a node until clear_ignore; clones
    keep this. *)
Theorem C38_targets : forall leaves_of is_var u root fresh ws u',
  calculate leaves_of is_var u root fresh = Ok (ws, u') ->
  (forall w, In w ws <-> In w (leaves_of root) /\ is_var w = true /\ ~ In w (u_ignored u)) /\
  (NoDup (leaves_of root) -> NoDup ws) /\ u_ignored u' = u_ignored u.
Proof. exact C38_targets_lemma. Qed.
Print Assumptions C38_targets.

Theorem C38_ignore : forall leaves_of is_var u sub w,
  (In w (u_ignored (ignore_subtree leaves_of is_var u sub)) <-> In w (u_ignored u) \/ (In w (leaves_of sub) /\ is_var w = true)) /\
  ~ In w (u_ignored (clear_ignore u)) /\ u_ignored (clone_updater u) = u_ignored u.
Proof. exact C38_ignore_lemma. Qed.
Print Assumptions C38_ignore.

(** Refuted: the momentum, adadelta and adagrad updaters compute nothing: calculate throws as soon
    as there is a variable to update. *)
Theorem C38_unimplemented_refuted : forall leaves_of is_var u root fresh,
  u_kind u = Momentum \/ u_kind u = Adadelta \/ u_kind u = Adagrad ->
  (exists w, In w (leaves_of root) /\ is_var w = true /\ ~ In w (u_ignored u)) ->
  calculate leaves_of is_var u root fresh = Throw.
Proof. exact C38_unimplemented_refuted_lemma. Qed.
Print Assumptions C38_unimplemented_refuted.

Example C38_targets_nonvacuous :
  let lv := fun r => if r =? 9 then [3; 4; 5] else [4] in
  let u := ignore_subtree lv (fun l => negb (l =? 5)) (mkUpd Rms [] []) 8 in
  calculate lv (fun l => negb (l =? 5)) u 9 20 = Ok ([3], mkUpd Rms [4] [20]).
Proof. exact C38_targets_nonvacuous_lemma. Qed.

(** hypotheses of the vanilla law are met *)
Example C38_vgb_nonvacuous : forall lr d eps : R,
  let A := real_arith lr d eps in
  let ops := [ELeaf (Some 2%R); EOp [0] (fun1 (fun x => x)); EOp [1] (fun1 (scale_lr A))] in
  exists s s' r, run (fun _ _ => true) audience least einit ops = Done s tt /\ Forall plain ops /\ Forall no_freeze ops /\
    operation s 2 [1] (fun1 (scale_lr A)) /\ leaf s 0 /\
    vgb_call (fun _ _ => true) audience least A s 0 2 true = Done s' r /\ val s' 0 = Some (2 - 2 * lr)%R.
Proof. exact C38_vgb_nonvacuous_lemma. Qed.
