(** Model of stoppable_thread and stop_flag (app/tenncor/include/thread/stoppable_thread.hpp,
    stop_flag.hpp, src/thread/stoppable_thread.cpp, stop_flag.cpp): one thread that owns the
    stoppable_thread objects and any number of workers, interleaved in any way.

    Simplifications. The function a worker runs is arbitrary: at any moment it may call
    stop_throw, call stop_wait, return, or do something that does not touch its flag (no event).
    An exception other than thread_interrupted leaving it (std::terminate) is not modelled. The
    flag's relaxed loads and stores are taken to be sequentially consistent. The constructor
    with a function returns after the worker has published its flag (the promise of
    stoppable_thread.hpp:31-49), so it is one step. stop_wait's mutex is private to the call, so
    it excludes nobody. *)
From Verif Require Import Common.

(** where a worker is: in its own code; in stop_wait before the predicate is evaluated, between
    a false predicate and falling asleep, asleep; ended (its thread_local flag is destroyed) *)
Inductive phase := Running | AtCheck | ToSleep | Asleep | Ended.
Record worker := mkworker { ph : phase; flag : bool }.
(** stoppable_thread.hpp:55-58 members: internal_op_ (None: no thread) and flag_ (None:
    indeterminate) *)
Record obj := mkobj { thr : option nat; flg : option nat }.
(** what the owner is in the middle of: the notify_one of set; the join of an object; the
    destructor's join *)
Inductive busy := Idle | Notifying (w : nat) | Joining (i w : nat) | Dying (i w : nat).
(** an object is None once destroyed *)
Record tstate := mkts { objs : list (option obj); workers : list worker; owner : busy }.

Definition set_worker s w k := mkts (objs s) (set_nth w k (workers s)) (owner s).
Definition set_obj s i o := mkts (set_nth i o (objs s)) (workers s) (owner s).
Definition set_owner s b := mkts (objs s) (workers s) b.

Inductive tevent :=
(* the owner *)
| ONew | OSpawn | OMove (i : nat) | OAssign (i j : nat) | OStop (i : nat) | ONotify | OJoin (i : nat) | OJoined | ODetach (i : nat) | ODestroy (i : nat)
(* worker w *)
| WThrow (w : nat) | WWait (w : nat) | WCheck (w : nat) | WSleep (w : nat) | WSpurious (w : nat) | WReturn (w : nat).

(** an owner's call on a live object, made when the owner is not inside another call *)
Definition on_obj (s : tstate) (i : nat) (k : obj -> option (res tstate)) : option (res tstate) :=
  match owner s, nth_error (objs s) i with Idle, Some (Some o) => k o | _, _ => None end.
Definition on_worker (s : tstate) (w : nat) (p : phase) (k : worker -> worker) : option (res tstate) :=
  match nth_error (workers s) w with
  | Some x => match ph x, p with
              | Running, Running | AtCheck, AtCheck | ToSleep, ToSleep | Asleep, Asleep => Some (Ok (set_worker s w (k x)))
              | _, _ => None
              end
  | None => None
  end.
Definition ended (s : tstate) (w : nat) : bool :=
  match nth_error (workers s) w with Some x => match ph x with Ended => true | _ => false end | None => false end.

(** one step; None: the event cannot happen now. [Throw]: std::system_error, nothing changed.
    [Abort]: std::terminate. *)
Definition tstep (s : tstate) (e : tevent) : option (res tstate) :=
  match e with
  | ONew => (* stoppable_thread.cpp:12: flag_ is not initialised *)
    match owner s with Idle => Some (Ok (mkts (objs s ++ [Some (mkobj None None)]) (workers s) Idle)) | _ => None end
  | OSpawn => (* stoppable_thread.hpp:27-50; stop_flag.hpp:26 the flag is zero-initialised (thread_local) *)
    match owner s with
    | Idle => let w := length (workers s) in
              Some (Ok (mkts (objs s ++ [Some (mkobj (Some w) (Some w))]) (workers s ++ [mkworker Running false]) Idle))
    | _ => None
    end
  | OMove i => (* stoppable_thread.cpp:22-24: moving a pointer leaves the source's as it is *)
    on_obj s i (fun o => Some (Ok (set_obj (mkts (objs s ++ [Some o]) (workers s) Idle) i (Some (mkobj None (flg o))))))
  | OAssign i j => (* stoppable_thread.cpp:26-35; std::thread's assignment to a joinable thread terminates *)
    on_obj s i (fun o => on_obj s j (fun o' =>
      if i =? j then Some (Ok s)
      else match thr o with
           | Some _ => Some Abort
           | None => Some (Ok (set_obj (set_obj s i (Some o')) j (Some (mkobj None (flg o')))))
           end))
  | OStop i => (* stoppable_thread.cpp:52-58, stop_flag.cpp:17: the store of set *)
    on_obj s i (fun o =>
      match flg o with
      | None => Some UB
      | Some w => if ended s w then Some UB
                  else match nth_error (workers s) w with
                       | Some x => Some (Ok (set_owner (set_worker s w (mkworker (ph x) true)) (Notifying w)))
                       | None => Some UB
                       end
      end)
  | ONotify => (* stop_flag.cpp:18 *)
    match owner s with
    | Notifying w =>
      match nth_error (workers s) w with
      | Some x => match ph x with
                  | Ended => Some UB
                  | Asleep => Some (Ok (set_owner (set_worker s w (mkworker AtCheck (flag x))) Idle))
                  | _ => Some (Ok (set_owner s Idle))
                  end
      | None => Some UB
      end
    | _ => None
    end
  | OJoin i => (* stoppable_thread.cpp:37-40 *)
    on_obj s i (fun o => match thr o with None => Some Throw | Some w => Some (Ok (set_owner s (Joining i w))) end)
  | OJoined => (* join returns, or the destructor's join does *)
    match owner s with
    | Joining i w => if ended s w then
        match nth_error (objs s) i with
        | Some (Some o) => Some (Ok (set_owner (set_obj s i (Some (mkobj None (flg o)))) Idle))
        | _ => None
        end else None
    | Dying i w => if ended s w then Some (Ok (set_owner (set_obj s i None) Idle)) else None
    | _ => None
    end
  | ODetach i => (* stoppable_thread.cpp:42-45 *)
    on_obj s i (fun o => match thr o with None => Some Throw | Some w => Some (Ok (set_obj s i (Some (mkobj None (flg o))))) end)
  | ODestroy i => (* stoppable_thread.cpp:14-20 *)
    on_obj s i (fun o => match thr o with None => Some (Ok (set_obj s i None)) | Some w => Some (Ok (set_owner s (Dying i w))) end)
  | WThrow w => (* stop_flag.cpp:26-32, caught at stoppable_thread.hpp:44 *)
    on_worker s w Running (fun x => mkworker (if flag x then Ended else Running) (flag x))
  | WWait w => (* stop_flag.cpp:34-40 *)
    on_worker s w Running (fun x => mkworker AtCheck (flag x))
  | WCheck w => on_worker s w AtCheck (fun x => mkworker (if flag x then Running else ToSleep) (flag x))
  | WSleep w => on_worker s w ToSleep (fun x => mkworker Asleep (flag x))
  | WSpurious w => on_worker s w Asleep (fun x => mkworker AtCheck (flag x))
  | WReturn w => on_worker s w Running (fun x => mkworker Ended (flag x))
  end.

Definition tinit : tstate := mkts [] [] Idle.
(** a whole execution: every event could happen; std::system_error is caught by the caller *)
Fixpoint trun (s : tstate) (es : list tevent) : option tstate :=
  match es with
  | [] => Some s
  | e :: es => match tstep s e with Some (Ok s') => trun s' es | Some Throw => trun s es | _ => None end
  end.
