(** Specification vocabulary for stoppable threads. *)
From Verif Require Import Common ThreadModel.

Definition live_obj (s : tstate) (i : nat) (o : obj) : Prop := nth_error (objs s) i = Some (Some o).
(** object [i] is joinable, with thread [w] *)
Definition holds (s : tstate) (i w : nat) : Prop := exists o, live_obj s i o /\ thr o = Some w.
(** stop on object [i] is for thread [w] *)
Definition aims (s : tstate) (i w : nat) : Prop := exists o, live_obj s i o /\ flg o = Some w.
Definition at_phase (s : tstate) (w : nat) (p : phase) : Prop := exists x, nth_error (workers s) w = Some x /\ ph x = p.
(** in stop_wait *)
Definition in_wait (s : tstate) (w : nat) : Prop := at_phase s w AtCheck \/ at_phase s w ToSleep \/ at_phase s w Asleep.
(** [es] is an execution from the start that ends in [s] *)
Definition execution (es : list tevent) (s : tstate) : Prop := trun tinit es = Some s.
(** some stop call in [es] was for [w] *)
Definition stopped (es : list tevent) (w : nat) : Prop :=
  exists es1 i es2 s, es = es1 ++ OStop i :: es2 /\ execution es1 s /\ aims s i w.
Definition detached (es : list tevent) (w : nat) : Prop :=
  exists es1 i es2 s, es = es1 ++ ODetach i :: es2 /\ execution es1 s /\ holds s i w.
Definition is_owner (e : tevent) : bool :=
  match e with WThrow _ | WWait _ | WCheck _ | WSleep _ | WSpurious _ | WReturn _ => false | _ => true end.
Definition is_stop (e : tevent) : bool := match e with OStop _ => true | _ => false end.
(** what the constructor and the destructor of rpc_record do with server_
    (grpc_vis_record.cpp:22-43): default constructed, assigned from a temporary that is then
    destroyed; stopped, then destroyed, which comes before the destruction of the caches because
    members are destroyed in reverse order (grpc_vis_record.hpp:46-50) *)
Definition recorder : list tevent := [ONew; OSpawn; OAssign 0 1; ODestroy 1; OStop 0; ONotify; ODestroy 0; OJoined].
