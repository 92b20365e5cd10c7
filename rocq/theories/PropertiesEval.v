(** Generated by tools/genprops.py from EvalLaws.v: property statements only. *)
From Coq Require Import Permutation.
From Verif Require Import Common EvalModel EvalSpec EvalProofs.
From Verif Require Import EvalLaws.

(** Build a graph, assign leaves with notification, evaluate, read shapes, freeze and unfreeze, in
    any order and any number of times, as long as no call throws. If [v] is then not frozen and
    eval of [v] returns, it returns the value the expression of [v] has for the current leaf
    values (the null tensor if a leaf it depends on is not initialised), and no leaf changed,
    whatever the order of notification and the order of equally deep nodes in the queue. *)
Theorem C29_eval_is_current : forall V compat ord top ops s v s' r,
  @valid_order V ord -> valid_top top ->
  run compat ord top einit ops = Done s tt -> Forall plain ops ->
  is_frozen s v = false ->
  step compat ord top s (EEval v) = Done s' r ->
  denotes s v r /\ nodes s' = nodes s /\ forall x, leaf s x -> val s' x = val s x.
Proof. exact C29_eval_is_current_lemma. Qed.
Print Assumptions C29_eval_is_current.

(** an expression has only one value *)
Theorem C29_value_unique : forall V compat ord top ops s v r1 r2,
  @valid_order V ord -> valid_top top -> run_on compat ord top einit ops = Some s ->
  denotes s v r1 -> denotes s v r2 -> r1 = r2.
Proof. exact C29_value_unique_lemma. Qed.
Print Assumptions C29_value_unique.

(** No call with existing arguments runs into undefined behaviour or fails to terminate, even
    after exceptions, clones and silent assignments. *)
Theorem C29_calls_return : forall V compat ord top ops s o,
  @valid_order V ord -> valid_top top -> run_on compat ord top einit ops = Some s ->
  callable s o -> step compat ord top s o <> Bad.
Proof. exact C29_calls_return_lemma. Qed.
Print Assumptions C29_calls_return.

(** While a node is frozen, assignments and evaluations leave its value alone, and eval of
    it returns that value. *)
Theorem C29_frozen_keeps : forall V compat ord top ops s v o,
  @valid_order V ord -> valid_top top -> run_on compat ord top einit ops = Some s ->
  (exists args f, operation s v args f) -> is_frozen s v = true ->
  match o with EAssign _ _ _ | EEval _ => True | _ => False end ->
  match step compat ord top s o with
  | Done s' r => val s' v = val s v /\ is_frozen s' v = true /\ (o = EEval v -> r = val s v)
  | Exc s' => val s' v = val s v /\ is_frozen s' v = true
  | Bad => True
  end.
Proof. exact C29_frozen_keeps_lemma. Qed.
Print Assumptions C29_frozen_keeps.

(** a diamond: 2 = 0 + 0, 3 = 2 + 0, 4 = 3, evaluated after two assignments *)
Example C29_nonvacuous :
  let ops := [ELeaf (Some 1); ELeaf None; EOp [0; 0] sum_all; EOp [2; 0] sum_all; EOp [3] sum_all; EEval 4; EAssign 0 5 true; EAssign 0 7 true] in
  exists s s', run (fun _ _ => true) audience least einit ops = Done s tt /\ Forall plain ops /\ is_frozen s 4 = false /\
    step (fun _ _ => true) audience least s (EEval 4) = Done s' (Some 21) /\ val s 4 = Some 3.
Proof. exact C29_nonvacuous_lemma. Qed.

(** Refuted: after an assignment without notification eval still returns the old value. *)
Theorem C29_silent_assignment_refuted : exists ops (s s' : estate nat) r,
  run (fun _ _ => true) audience least einit ops = Done s tt /\ Forall no_clone ops /\
  is_frozen s 1 = false /\ step (fun _ _ => true) audience least s (EEval 1) = Done s' r /\ ~ denotes s 1 r.
Proof. exact C29_silent_assignment_refuted_lemma. Qed.
Print Assumptions C29_silent_assignment_refuted.

(** Refuted: a cloned operation node has depth 0, is recomputed before its arguments, and keeps a
    value computed from an outdated argument. Here 1 = 0 + 0, 2 = 0 + 1, 3 a clone of 2; leaf 0
    goes from 1 to 10; eval of the clone gives 12 and not 30. *)
Theorem C29_clone_refuted : exists ops (s s' : estate nat) r,
  run (fun _ _ => true) audience least einit ops = Done s tt /\
  Forall (fun o => match o with EAssign _ _ b => b = true | _ => True end) ops /\
  is_frozen s 3 = false /\ step (fun _ _ => true) audience least s (EEval 3) = Done s' r /\ r = Some 12 /\ denotes s 3 (Some 30).
Proof. exact C29_clone_refuted_lemma. Qed.
Print Assumptions C29_clone_refuted.

(** Refuted: reading the shape of a frozen node recomputes it, so its frozen value is lost. *)
Theorem C29_shape_of_frozen_refuted : exists ops (s s' : estate nat) r,
  run (fun _ _ => true) audience least einit ops = Done s tt /\ Forall plain ops /\
  is_frozen s 1 = true /\ val s 1 = Some 2 /\ step (fun _ _ => true) audience least s (EShape 1) = Done s' r /\ val s' 1 = Some 10.
Proof. exact C29_shape_of_frozen_refuted_lemma. Qed.
Print Assumptions C29_shape_of_frozen_refuted.

(** Refuted: building a node on a frozen and a not frozen one unfreezes the frozen one (or not),
    depending on the order of the arguments. *)
Theorem C29_merge_thaws_refuted : forall b, exists (ops : list (eop nat)) s s1 s2,
  run (fun _ _ => true) audience least einit ops = Done s tt /\ is_frozen s 2 = true /\ is_frozen s 3 = false /\
  step (fun _ _ => true) audience least s (EOp [2; 3] sum_all) = Done s1 None /\ is_frozen s1 2 = true /\ is_frozen s1 3 = true /\
  step (fun _ _ => true) audience least s (EOp [3; 2] sum_all) = Done s2 None /\ is_frozen s2 2 = false /\ is_frozen s2 3 = false /\
  val s 0 = Some b.
Proof. exact C29_merge_thaws_refuted_lemma. Qed.
Print Assumptions C29_merge_thaws_refuted.

(** In a history without freezing - with clones, silent assignments, exceptions - no single call
    computes a node twice. *)
Theorem C30_at_most_once : forall V compat ord top ops s o s',
  @valid_order V ord -> valid_top top -> run_on compat ord top einit ops = Some s -> Forall no_freeze ops -> no_freeze o ->
  (exists r, step compat ord top s o = Done s' r) \/ step compat ord top s o = Exc s' ->
  exists l, elog s' = elog s ++ l /\ NoDup l.
Proof. exact C30_at_most_once_lemma. Qed.
Print Assumptions C30_at_most_once.

(** With freezing as well, no single call computes a node with several arguments twice. *)
Theorem C30_several_at_most_once : forall V compat ord top ops s o s',
  @valid_order V ord -> valid_top top -> run_on compat ord top einit ops = Some s ->
  (exists r, step compat ord top s o = Done s' r) \/ step compat ord top s o = Exc s' ->
  exists l, elog s' = elog s ++ l /\ forall v, several s' v -> count_occ Nat.eq_dec l v <= 1.
Proof. exact C30_several_at_most_once_lemma. Qed.
Print Assumptions C30_several_at_most_once.

(** When eval has returned, a second eval computes nothing and returns the same. *)
Theorem C30_second_eval_idle : forall V compat ord top ops s v s1 r1 s2 r2,
  @valid_order V ord -> valid_top top -> run_on compat ord top einit ops = Some s ->
  step compat ord top s (EEval v) = Done s1 r1 -> step compat ord top s1 (EEval v) = Done s2 r2 ->
  r2 = r1 /\ elog s2 = elog s1 /\ vals s2 = vals s1.
Proof. exact C30_second_eval_idle_lemma. Qed.
Print Assumptions C30_second_eval_idle.

(** After eval of [v] no node that [v] is computed from, and no node computed from [v], is stale. *)
Theorem C30_nothing_stale : forall V compat ord top ops s v s' r w,
  @valid_order V ord -> valid_top top ->
  run compat ord top einit ops = Done s tt -> Forall plain ops ->
  (exists args f, operation s v args f) -> is_frozen s v = false ->
  step compat ord top s (EEval v) = Done s' r ->
  upstream s w v \/ upstream s v w -> denotes s' w (val s' w).
Proof. exact C30_nothing_stale_lemma. Qed.
Print Assumptions C30_nothing_stale.

(** hypotheses are met, with a diamond and a chain of unary nodes *)
Example C30_nonvacuous :
  let ops := [ELeaf (Some 1); EOp [0; 0] sum_all; EOp [1] sum_all; EOp [2] sum_all; EOp [3; 0] sum_all; EEval 4; EAssign 0 5 true] in
  exists s s', run_on (fun _ _ => true) audience least einit ops = Some s /\ Forall no_freeze ops /\
    step (fun _ _ => true) audience least s (EEval 4) = Done s' (Some 15) /\ elog s' = elog s ++ [1; 2; 3; 4].
Proof. exact C30_nonvacuous_lemma. Qed.

(** Refuted: a unary node created while its argument is frozen and waiting is computed twice by
    the first eval after unfreezing. *)
Theorem C30_unfreeze_refuted : exists ops (s s' : estate nat) r,
  run (fun _ _ => true) audience least einit ops = Done s tt /\ Forall plain ops /\
  step (fun _ _ => true) audience least s (EEval 2) = Done s' r /\ elog s' = elog s ++ [1; 2; 2].
Proof. exact C30_unfreeze_refuted_lemma. Qed.
Print Assumptions C30_unfreeze_refuted.

(** Whatever went wrong before - exceptions out of evaluations, assignments, constructions, silent
    assignments - once an eval of [v] has returned and every leaf [v] depends on has been assigned
    again (with notification and without exception), the next eval of [v] that returns
    gives the current value. *)
Theorem C31_recovers : forall V compat ord top ops s v s1 r1 l s2 s3 r,
  @valid_order V ord -> valid_top top ->
  run_on compat ord top einit ops = Some s -> Forall no_clone ops ->
  is_frozen s v = false ->
  step compat ord top s (EEval v) = Done s1 r1 ->
  (forall x, leaf s x -> upstream s x v -> exists y, In (x, y) l) ->
  run compat ord top s1 (map (fun p => EAssign (fst p) (snd p) true) l) = Done s2 tt ->
  step compat ord top s2 (EEval v) = Done s3 r ->
  denotes s2 v r.
Proof. exact C31_recovers_lemma. Qed.
Print Assumptions C31_recovers.

(** An eval that keeps throwing stops doing so: if the program just calls it again, at most as
    many of the calls throw as there are nodes, then one returns. *)
Theorem C31_eventually_returns : forall V compat ord top ops s v,
  @valid_order V ord -> valid_top top -> run_on compat ord top einit ops = Some s -> v < length (nodes s) ->
  exists k s0 s1 r, k <= length (nodes s) /\ run_on compat ord top s (repeat (EEval v) k) = Some s0 /\
    step compat ord top s0 (EEval v) = Done s1 r.
Proof. exact C31_eventually_returns_lemma. Qed.
Print Assumptions C31_eventually_returns.

(** hypotheses are met after a failed evaluation *)
Example C31_nonvacuous :
  let ops := [ELeaf (Some [1]); ELeaf (Some [2]); EOp [0; 1] padd; EEval 2; EAssign 1 [5; 6] true; EEval 2] in
  let l := [(0, [1]); (1, [6])] in
  exists s s1 s2 s3, run_on same_len audience least einit ops = Some s /\ Forall no_clone ops /\ is_frozen s 2 = false /\
    run same_len audience least einit ops = Exc s /\
    step same_len audience least s (EEval 2) = Done s1 (Some [3]) /\
    run same_len audience least s1 (map (fun p => EAssign (fst p) (snd p) true) l) = Done s2 tt /\
    step same_len audience least s2 (EEval 2) = Done s3 (Some [7]).
Proof. exact C31_nonvacuous_lemma. Qed.

(** Refuted: after an evaluation has thrown, assigning the offending leaf a good value is not enough:
    the next eval returns, without exception, the value from before. *)
Theorem C31_refuted : exists ops (s s1 s2 : estate (list nat)),
  run same_len audience least einit ops = Exc s /\ Forall plain ops /\
  step same_len audience least s (EAssign 1 [6] true) = Done s1 None /\
  step same_len audience least s1 (EEval 2) = Done s2 (Some [3]) /\ denotes s1 2 (Some [7]).
Proof. exact C31_refuted_lemma. Qed.
Print Assumptions C31_refuted.
