(** Generated by tools/genprops.py from LeafMoveLaws.v: property statements only. *)
From Coq Require Import Lia.
From Verif Require Import Common ShapeModel ShapeSpec ShapeProofs FitModel TensorModel TensorSpec TensorProofs TensorDataLaws LeafModel LeafSpec LeafProofs LeafLaws LeafMoveModel LeafMoveSpec.
From Verif Require Import LeafMoveLaws.

(** Moving a placeholder or variable: the new node looks exactly as the old one did (value,
    shape, status, initializer); the old one evaluates to nothing, has the shape of rank 0 and
    no initializer; no other node changes and nothing is notified. Finding: the old node still
    says that its status is good if it did before. *)
Theorem C70_move :
  forall (T : Type) (zero junk : T) add sub eqb ops (M : @mworld T) i,
    mrun zero junk add sub eqb minit ops = Ok M -> mplace M i \/ mvar M i ->
    exists M', mstep zero junk add sub eqb M (MMove i) = Ok M' /\
      looks_like M' (next M) M i /\
      mobserve M' i = Ok None /\ mget_shape M' i = Ok [] /\ good_status M' i = good_status M i /\
      (mplace M i -> mplace M' i) /\ (mvar M i -> mkind M' i (KVar None)) /\
      (forall x, x <> i -> x < next M -> mobserve M' x = mobserve M x) /\ l_log (m_w M') = l_log (m_w M).
Proof. exact C70_move_lemma. Qed.
Print Assumptions C70_move.

(** Move assignment i = std::move(j): the same for i in place of the new node; both notify.
    Whatever i was before, moved from or not, does not matter. *)
Theorem C70_move_assign :
  forall (T : Type) (zero junk : T) add sub eqb ops (M : @mworld T) i j,
    mrun zero junk add sub eqb minit ops = Ok M -> (mplace M i /\ mplace M j) \/ (mvar M i /\ mvar M j) -> i <> j ->
    exists M', mstep zero junk add sub eqb M (MMoveAssign i j) = Ok M' /\
      looks_like M' i M j /\
      mobserve M' j = Ok None /\ mget_shape M' j = Ok [] /\ good_status M' j = good_status M j /\
      (mplace M j -> mplace M' j) /\ (mvar M j -> mkind M' j (KVar None)) /\
      (forall x, x <> i -> x <> j -> x < next M -> mobserve M' x = mobserve M x) /\ l_log (m_w M') = l_log (m_w M) ++ [i; i].
Proof. exact C70_move_assign_lemma. Qed.
Print Assumptions C70_move_assign.

(** Copy assignment i = j: i then looks exactly as j does, every other node, j too, looks as it
    did; i notifies twice. *)
Theorem C70_copy_assign :
  forall (T : Type) (zero junk : T) add sub eqb ops (M : @mworld T) i j,
    mrun zero junk add sub eqb minit ops = Ok M -> (mplace M i /\ mplace M j) \/ (mvar M i /\ mvar M j) -> i <> j ->
    exists M', mstep zero junk add sub eqb M (MCopyAssign i j) = Ok M' /\
      looks_like M' i M j /\ (forall x, x <> i -> x < next M -> looks_like M' x M x) /\ l_log (m_w M') = l_log (m_w M) ++ [i; i].
Proof. exact C70_copy_assign_lemma. Qed.
Print Assumptions C70_copy_assign.

(** Assigning a node to itself, by copy or by move, changes nothing. *)
Theorem C70_self_assign :
  forall (T : Type) (zero junk : T) add sub eqb ops (M : @mworld T) i,
    mrun zero junk add sub eqb minit ops = Ok M -> mplace M i \/ mvar M i ->
    mstep zero junk add sub eqb M (MMoveAssign i i) = Ok M /\ mstep zero junk add sub eqb M (MCopyAssign i i) = Ok M.
Proof. exact C70_self_assign_lemma. Qed.
Print Assumptions C70_self_assign.

(** Moving a node away and back again: it looks as it did before. *)
Theorem C70_move_back :
  forall (T : Type) (zero junk : T) add sub eqb ops (M : @mworld T) i,
    mrun zero junk add sub eqb minit ops = Ok M -> mplace M i \/ mvar M i ->
    exists M', mrun zero junk add sub eqb M [MMove i; MMoveAssign i (next M)] = Ok M' /\
      looks_like M' i M i /\ mobserve M' (next M) = Ok None /\
      (forall x, x <> i -> x < next M -> mobserve M' x = mobserve M x).
Proof. exact C70_move_back_lemma. Qed.
Print Assumptions C70_move_back.

(** No operation changes what a node that it does not write to looks like. *)
Theorem C70_others_unchanged :
  forall (T : Type) (zero junk : T) add sub eqb ops (M M' : @mworld T) o k,
    mrun zero junk add sub eqb minit ops = Ok M -> mstep zero junk add sub eqb M o = Ok M' ->
    k < next M -> ~ changes M o k -> mobserve M' k = mobserve M k.
Proof. exact C70_others_unchanged_lemma. Qed.
Print Assumptions C70_others_unchanged.

(** Findings: a node that has been moved from cannot be used again (except by assigning another
    node to it). Initialising a variable then fails its assertion, and follows a null pointer
    if an initializer is set first; so does feeding a placeholder. An updater made before or
    after the move, whether it reads the node or writes to it, fails an assertion or follows a
    null pointer, and every updater with constant data for it follows the null pointer. *)
Theorem C70_moved_from_refuted :
  forall (T : Type) (zero junk : T) add sub eqb ops (M M' : @mworld T) i,
    mrun zero junk add sub eqb minit ops = Ok M ->
    mstep zero junk add sub eqb M (MMove i) = Ok M' \/ (exists x, x <> i /\ mstep zero junk add sub eqb M (MMoveAssign x i) = Ok M') ->
    let step o := mstep zero junk add sub eqb M' (MOp o) in
    (mvar M' i -> step (LInit i) = Abort /\ (forall s, step (LInitShape i s) = Abort) /\
       forall f M2, step (LSetInit i f) = Ok M2 -> mstep zero junk add sub eqb M2 (MOp (LInit i)) = UB) /\
    (mplace M' i -> forall d, step (LFeed i d) = UB) /\
    (forall u a d b, nth_error (l_us (m_w M')) u = Some (UData a i d) -> step (LRun u b) = UB) /\
    (forall u a x b, nth_error (l_us (m_w M')) u = Some (UNode a x i) -> x < next M' -> step (LRun u b) = Abort) /\
    (forall u a x b, nth_error (l_us (m_w M')) u = Some (UNode a i x) -> step (LRun u b) = UB \/ step (LRun u b) = Abort).
Proof. exact C70_moved_from_refuted_lemma. Qed.
Print Assumptions C70_moved_from_refuted.

Example C70_nonvacuous :
  exists (M M2 : @mworld nat),
    mrun 0 0 Nat.add Nat.sub Nat.eqb minit
      [MOp (LVar [2] (Some (fun k => 10 + k))); MOp (LInit 0); MOp (LVar [3] (Some (fun k => k))); MOp (LInit 1); MOp (LUpdater AAdd 0 1); MMove 0] = Ok M /\
    mobserve M 2 = Ok (Some ([2], [10; 11])) /\ mobserve M 0 = Ok None /\ mobserve M 1 = Ok (Some ([3], [0; 1; 2])) /\ good_status M 0 = Ok true /\
    mstep 0 0 Nat.add Nat.sub Nat.eqb M (MOp (LInit 0)) = Abort /\ mstep 0 0 Nat.add Nat.sub Nat.eqb M (MOp (LRun 0 true)) = UB /\
    mrun 0 0 Nat.add Nat.sub Nat.eqb M [MCopyAssign 0 1; MMoveAssign 1 2; MOp (LRun 0 true); MOp (LClone 2)] = Abort /\
    mrun 0 0 Nat.add Nat.sub Nat.eqb M [MCopyAssign 0 1; MOp (LRun 0 true); MMoveAssign 1 2; MOp (LClone 2)] = Ok M2 /\
    mobserve M2 0 = Ok (Some ([3], [0; 2; 4])) /\ mobserve M2 1 = Ok (Some ([2], [10; 11])) /\ mobserve M2 2 = Ok None /\ mobserve M2 3 = Ok None /\
    l_log (m_w M2) = [0; 1; 0; 0; 0; 1; 1].
Proof. exact C70_nonvacuous_lemma. Qed.
