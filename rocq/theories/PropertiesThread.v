(** Generated by tools/genprops.py from ThreadLaws.v: property statements only. *)
From Coq Require Import Lia.
From Verif Require Import Common ThreadModel ThreadSpec ThreadProofs.
From Verif Require Import ThreadLaws.

(** In every execution, stop_throw ends the thread that calls it exactly when stop was called for
    that thread before. *)
Theorem C52_throw : forall es s w, execution es s -> at_phase s w Running ->
  exists s', tstep s (WThrow w) = Some (Ok s') /\ (at_phase s' w Ended <-> stopped es w) /\ (at_phase s' w Running <-> ~ stopped es w).
Proof. exact C52_throw_lemma. Qed.
Print Assumptions C52_throw.

(** stop_wait returns - whatever wakes it - only when stop was called for the thread before, and
    does return when it looks after that. *)
Theorem C52_wait : forall es s w, execution es s -> at_phase s w AtCheck ->
  exists s', tstep s (WCheck w) = Some (Ok s') /\ (at_phase s' w Running <-> stopped es w) /\ (at_phase s' w ToSleep <-> ~ stopped es w).
Proof. exact C52_wait_lemma. Qed.
Print Assumptions C52_wait.

(** A thread belongs to at most one object, which also stops it. A thread that has not ended
    and was never detached belongs to an object: when its object's join or destructor has
    returned, the thread has ended. *)
Theorem C52_ownership : forall es s, execution es s ->
  (forall i j w, holds s i w -> holds s j w -> i = j) /\
  (forall i w, holds s i w -> aims s i w) /\
  (forall w, w < length (workers s) -> at_phase s w Ended \/ detached es w \/ exists i, holds s i w).
Proof. exact C52_ownership_lemma. Qed.
Print Assumptions C52_ownership.

Theorem C52_join : forall es s s' i w, execution es s -> tstep s OJoined = Some (Ok s') -> owner s = Joining i w \/ owner s = Dying i w ->
  at_phase s' w Ended /\ owner s' = Idle /\ (forall j, ~ holds s' j w) /\ (owner s = Dying i w -> forall o, ~ live_obj s' i o).
Proof. exact C52_join_lemma. Qed.
Print Assumptions C52_join.

(** Moving hands the thread over; both objects can still stop it. *)
Theorem C52_move : forall es s i o, execution es s -> owner s = Idle -> live_obj s i o -> exists s', tstep s (OMove i) = Some (Ok s') /\
  let n := length (objs s) in workers s' = workers s /\
  (forall w, holds s' n w <-> holds s i w) /\ (forall w, ~ holds s' i w) /\ (forall w, aims s' n w <-> aims s i w) /\ (forall w, aims s' i w <-> aims s i w) /\
  (forall j, j <> i -> j < n -> nth_error (objs s') j = nth_error (objs s) j).
Proof. exact C52_move_lemma. Qed.
Print Assumptions C52_move.

(** When a call is undefined: stop on an object that was never given a thread, or whose thread
    has ended - already, or before the call gets to notify it. *)
Theorem C52_undefined : forall es s e, execution es s ->
  (tstep s e = Some UB <->
     (exists i o, e = OStop i /\ owner s = Idle /\ live_obj s i o /\ forall w, aims s i w -> at_phase s w Ended) \/
     (exists w, e = ONotify /\ owner s = Notifying w /\ at_phase s w Ended)).
Proof. exact C52_undefined_lemma. Qed.
Print Assumptions C52_undefined.

(** stop is enough unless it comes between the worker's look at the flag and its falling asleep:
    if the worker is anywhere else when it is notified, it never sleeps in stop_wait again. *)
Theorem C52_stop_is_enough : forall es s w s1 es' s2, execution es s -> owner s = Notifying w -> ~ at_phase s w ToSleep -> tstep s ONotify = Some (Ok s1) ->
  trun s1 es' = Some s2 -> at_phase s2 w Running \/ at_phase s2 w AtCheck \/ at_phase s2 w Ended.
Proof. exact C52_stop_is_enough_lemma. Qed.
Print Assumptions C52_stop_is_enough.

(** A stop of a sleeping worker is always completed, and wakes it, if the worker is not woken
    spuriously meanwhile. *)
Theorem C52_stop_asleep : forall es s i w, execution es s -> owner s = Idle -> aims s i w -> at_phase s w Asleep ->
  exists s1, tstep s (OStop i) = Some (Ok s1) /\ owner s1 = Notifying w /\
    forall es' s2, trun s1 es' = Some s2 -> ~ In (WSpurious w) es' -> ~ In ONotify es' -> exists s3, tstep s2 ONotify = Some (Ok s3) /\ at_phase s3 w AtCheck /\ owner s3 = Idle.
Proof. exact C52_stop_asleep_lemma. Qed.
Print Assumptions C52_stop_asleep.

(** A sleeping worker that nobody is about to notify stays asleep until a spurious wake-up or
    another stop; then join and the destructor wait for ever. *)
Theorem C52_asleep : forall es s w es' s', execution es s -> at_phase s w Asleep -> owner s <> Notifying w ->
  trun s es' = Some s' -> ~ In (WSpurious w) es' -> forallb (fun e => negb (is_stop e)) es' = true -> at_phase s' w Asleep.
Proof. exact C52_asleep_lemma. Qed.
Print Assumptions C52_asleep.

(** Joining or destroying does not stop: if the thread is in stop_wait and was not stopped, the
    call never returns. *)
Theorem C52_join_hangs : forall es s i w es' s', execution es s -> owner s = Joining i w \/ owner s = Dying i w -> in_wait s w -> ~ stopped es w ->
  trun s es' = Some s' -> owner s' = owner s /\ in_wait s' w.
Proof. exact C52_join_hangs_lemma. Qed.
Print Assumptions C52_join_hangs.

(** The recorder's use, interleaved with its server in any way: when the destructor is through
    with server_, the server thread has ended, so it does not use the caches destroyed next. *)
Theorem C52_recorder : forall es s, execution es s -> filter is_owner es = recorder -> at_phase s 0 Ended /\ forall i o, ~ live_obj s i o.
Proof. exact C52_recorder_lemma. Qed.
Print Assumptions C52_recorder.

(** The recorder's use with a server that calls stop_wait and then returns: an execution that goes
    well. *)
Example C52_nonvacuous : exists es s, execution es s /\ filter is_owner es = recorder /\ stopped es 0 /\ In (WSleep 0) es.
Proof. exact C52_nonvacuous_lemma. Qed.

(** Refuted: stop can be lost. The recorder's destructor stops the server between its look at
    the flag and its falling asleep; unless a spurious wake-up helps, the destructor never
    returns. *)
Theorem C52_lost_wakeup_refuted : exists es s, execution es s /\ stopped es 0 /\ filter is_owner es ++ [OJoined] = recorder /\
  forall es' s', trun s es' = Some s' -> ~ In (WSpurious 0) es' -> owner s' = Dying 0 0 /\ at_phase s' 0 Asleep.
Proof. exact C52_lost_wakeup_refuted_lemma. Qed.
Print Assumptions C52_lost_wakeup_refuted.

(** Refuted: stop can use a destroyed flag. The server looks at the flag after the store and
    before the notification, returns, and its thread ends. *)
Theorem C52_notify_ended_refuted : exists es s, execution es s /\ filter is_owner es = firstn 5 recorder /\ tstep s ONotify = Some UB /\
  ~ In (WThrow 0) es /\ In (WWait 0) es.
Proof. exact C52_notify_ended_refuted_lemma. Qed.
Print Assumptions C52_notify_ended_refuted.

(** Refuted: stop of a default constructed object and of an object whose thread has returned are
    undefined, and assigning to an object with a running thread ends the program. *)
Theorem C52_misuse_refuted :
  (exists es s, execution es s /\ es = [ONew] /\ tstep s (OStop 0) = Some UB) /\
  (exists es s, execution es s /\ es = [OSpawn; WReturn 0] /\ holds s 0 0 /\ tstep s (OStop 0) = Some UB) /\
  (exists es s, execution es s /\ es = [OSpawn; OSpawn] /\ tstep s (OAssign 0 1) = Some Abort).
Proof. exact C52_misuse_refuted_lemma. Qed.
Print Assumptions C52_misuse_refuted.

(** hypotheses of the laws about stop: a worker asleep, one about to be notified, one joined while
    waiting *)
Example C52_states_nonvacuous :
  (exists es s, execution es s /\ owner s = Idle /\ aims s 0 0 /\ at_phase s 0 Asleep) /\
  (exists es s s1, execution es s /\ owner s = Notifying 0 /\ ~ at_phase s 0 ToSleep /\ tstep s ONotify = Some (Ok s1)) /\
  (exists es s, execution es s /\ owner s = Joining 0 0 /\ in_wait s 0 /\ ~ stopped es 0).
Proof. exact C52_states_nonvacuous_lemma. Qed.
