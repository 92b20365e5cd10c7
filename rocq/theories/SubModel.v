(** Model of the subscription streams of the visualisation server
    (app/tenncor/src/edgeinfo/grpc_vis/gui_notifier.cpp): any number of SubscribeNode and
    SubscribeEdge handlers, one thread each, the caches they read (CacheModel.v), the
    producer adding messages, EndSubscription and the server's shutdown, interleaved in any
    way.
    Simplifications: node and edge messages have one type; each operation on subscriptions_
    is one atomic step (the code has no lock around this unordered_set, so concurrent use is
    a data race to begin with) and the end iterator kept in [et] stays valid; Write always
    returns (its result is ignored by the code); the gRPC server accepts calls until Shutdown is
    called, EndSubscription calls accepted before can still execute after that, and Shutdown and
    Wait return when all handlers have returned (grpc++ server.h). *)
From Coq Require Import String.
From Verif Require Import Common CacheModel.
Local Open Scope list_scope.

Inductive kind := NodeK | EdgeK.

Section Sub.
Context {K T : Type} (hash : kind -> T -> K) (keqb : K -> K -> bool).

(** where a handler is: before its id is entered in subscriptions_; before the loop's test; in get_latest before its lock; asleep in
    get_latest's wait; about to write a message; returned *)
Inductive phase := Entering | AtTest | Reading | Sleeping | Writing (d : T) | Done.

(** gui_notifier.cpp:22-25, 41-44: the locals of a handler (cli_id, iter) and what it has
    written so far *)
Record stream := mkstream { s_kind : kind; s_id : string; s_iter : option nat; s_ph : phase; s_sent : list T }.

(** how far spawn_server is (gui_notifier.cpp:71-76, 78-97): waiting for the stop flag; after
    subscriptions_.clear(); after the first and the second escape_wait; after Shutdown was
    called; returned *)
Inductive stage := Serving | Cleared | EscapedN | Escaped | Stopping | Returned.

(** gui_notifier.hpp:55-62 node_src_, edge_src_, subscriptions_ *)
Record server := mkserver { nodec : @cache K T; edgec : @cache K T; subs : list string; streams : list stream; stg : stage }.

Definition server_new : server := mkserver cache_new cache_new [] [] Serving.

Definition get_cache (s : server) (k : kind) := match k with NodeK => nodec s | EdgeK => edgec s end.
Definition set_cache (s : server) (k : kind) c :=
  match k with NodeK => mkserver c (edgec s) (subs s) (streams s) (stg s) | EdgeK => mkserver (nodec s) c (subs s) (streams s) (stg s) end.
Definition set_stream (s : server) (i : nat) (x : stream) := mkserver (nodec s) (edgec s) (subs s) (set_nth i x (streams s)) (stg s).
Definition set_stage (s : server) g := mkserver (nodec s) (edgec s) (subs s) (streams s) g.
Definition set_subs (s : server) l := mkserver (nodec s) (edgec s) l (streams s) (stg s).
Definition at_phase (x : stream) (p : phase) := mkstream (s_kind x) (s_id x) (s_iter x) p (s_sent x).

Definition subscribed (s : server) (id : string) : bool := existsb (String.eqb id) (subs s).
Definition kind_eqb (a b : kind) : bool := match a, b with NodeK, NodeK | EdgeK, EdgeK => true | _, _ => false end.
Definition asleep_on (k : kind) (x : stream) : bool :=
  kind_eqb (s_kind x) k && match s_ph x with Sleeping => true | _ => false end.
Definition finished (x : stream) : bool := match s_ph x with Done => true | _ => false end.

Inductive sevent :=
| SSubscribe (k : kind) (id : string)      (* a client's SubscribeNode / SubscribeEdge arrives *)
| SEnter (i : nat)                         (* handler i enters its id in subscriptions_ *)
| STest (i : nat)                          (* handler i evaluates the loop's condition *)
| SRead (i : nat)                          (* handler i in get_latest: takes a value or goes to sleep *)
| SWrite (i : nat)                         (* handler i writes to its client *)
| SWake (i : nat)                          (* spurious wake-up of handler i *)
| SEnd (id : string)                       (* a client's EndSubscription *)
| SAdd (k : kind) (d : T) (w : option nat) (* the producer's add_latest; notify_one wakes handler w *)
| SClear                                   (* stop_wait returned; subscriptions_.clear() *)
| SEscape (w : option nat)                 (* the next escape_wait; notify_one wakes handler w *)
| SShutdown                                (* server->Shutdown() is called *)
| SReturn.                                 (* Shutdown and join return *)

(** notify_one: wakes one sleeping handler of this cache if there is one. A woken handler's
    get_latest returns an empty optional (shareable_cache.ipp:122-126), so it goes back to the
    loop's condition *)
Definition notify_one (s : server) (k : kind) (w : option nat) : option server :=
  match w with
  | None => if existsb (asleep_on k) (streams s) then None else Some s
  | Some i =>
    match nth_error (streams s) i with
    | Some x => if asleep_on k x then Some (set_stream s i (at_phase x AtTest)) else None
    | None => None
    end
  end.

(** one step; None: the event cannot happen now *)
Definition sstep (s : server) (e : sevent) : option (res server) :=
  match e with
  | SSubscribe k id => (* gui_notifier.cpp:18-22, 37-41 *)
    match stg s with
    | Stopping | Returned => None
    | _ => Some (Ok (mkserver (nodec s) (edgec s) (subs s) (streams s ++ [mkstream k id None Entering []]) (stg s)))
    end
  | SEnter i => (* gui_notifier.cpp:23-25, 42-44 *)
    match nth_error (streams s) i with
    | Some x => match s_ph x with
                | Entering => Some (Ok (set_stream (set_subs s (if subscribed s (s_id x) then subs s else s_id x :: subs s))
                                          i (at_phase x AtTest)))
                | _ => None
                end
    | None => None
    end
  | STest i => (* gui_notifier.cpp:27, 34, 46, 53 *)
    match nth_error (streams s) i with
    | Some x => match s_ph x with
                | AtTest => Some (Ok (set_stream s i (at_phase x (if subscribed s (s_id x) then Reading else Done))))
                | _ => None
                end
    | None => None
    end
  | SRead i => (* gui_notifier.cpp:29, 48 *)
    match nth_error (streams s) i with
    | Some x => match s_ph x with
                | Reading => Some (r <- get_latest (get_cache s (s_kind x)) (s_iter x) ;;
                                   Ok (set_stream s i (mkstream (s_kind x) (s_id x) (snd r)
                                         (match fst r with Some d => Writing d | None => Sleeping end) (s_sent x))))
                | _ => None
                end
    | None => None
    end
  | SWrite i => (* gui_notifier.cpp:31, 50 *)
    match nth_error (streams s) i with
    | Some x => match s_ph x with
                | Writing d => Some (Ok (set_stream s i (mkstream (s_kind x) (s_id x) (s_iter x) AtTest (s_sent x ++ [d]))))
                | _ => None
                end
    | None => None
    end
  | SWake i =>
    match nth_error (streams s) i with
    | Some x => match s_ph x with Sleeping => Some (Ok (set_stream s i (at_phase x AtTest))) | _ => None end
    | None => None
    end
  | SEnd id => (* gui_notifier.cpp:56-61 *)
    match stg s with
    | Returned => None
    | _ => Some (Ok (set_subs s (filter (fun x => negb (String.eqb id x)) (subs s))))
    end
  | SAdd k d w => (* shareable_cache.ipp:129-142 *)
    match add_latest (hash k) keqb (get_cache s k) d with
    | Ok c => match notify_one (set_cache s k c) k w with Some s' => Some (Ok s') | None => None end
    | Throw => Some Throw | Abort => Some Abort | UB => Some UB
    end
  | SClear => (* gui_notifier.cpp:73, 93-94 *)
    match stg s with Serving => Some (Ok (set_stage (set_subs s []) Cleared)) | _ => None end
  | SEscape w => (* gui_notifier.cpp:74-75; shareable_cache.ipp:144-148 *)
    match stg s with
    | Cleared => match notify_one (set_stage s EscapedN) NodeK w with Some s' => Some (Ok s') | None => None end
    | EscapedN => match notify_one (set_stage s Escaped) EdgeK w with Some s' => Some (Ok s') | None => None end
    | _ => None
    end
  | SShutdown => (* gui_notifier.cpp:95 *)
    match stg s with Escaped => Some (Ok (set_stage s Stopping)) | _ => None end
  | SReturn => (* gui_notifier.cpp:95-96 *)
    match stg s with
    | Stopping => if forallb finished (streams s) then Some (Ok (set_stage s Returned)) else None
    | _ => None
    end
  end.

(** an execution: every event possible when it happens, every step defined *)
Inductive srun : server -> list sevent -> server -> Prop :=
| srun_nil s : srun s [] s
| srun_cons s e s1 es s2 : sstep s e = Some (Ok s1) -> srun s1 es s2 -> srun s (e :: es) s2.

End Sub.
Arguments mkstream {T}. Arguments s_kind {T}. Arguments s_id {T}. Arguments s_iter {T}. Arguments s_ph {T}. Arguments s_sent {T}.
Arguments Entering {T}. Arguments AtTest {T}. Arguments Reading {T}. Arguments Sleeping {T}. Arguments Writing {T}. Arguments Done {T}.
Arguments SSubscribe {T}. Arguments SEnter {T}. Arguments STest {T}. Arguments SRead {T}. Arguments SWrite {T}. Arguments SWake {T}. Arguments SEnd {T}. Arguments SAdd {T}.
Arguments SClear {T}. Arguments SEscape {T}. Arguments SShutdown {T}. Arguments SReturn {T}.
