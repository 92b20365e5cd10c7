(** Generated by tools/genprops.py from SubLaws.v: property statements only. *)
From Coq Require Import String.
From Verif Require Import Common CacheModel CacheSpec CacheProofs SubModel SubSpec SubProofs.
Local Open Scope list_scope.
From Verif Require Import SubLaws.

(** Seen from one cache, the streams of its kind are consumers of that cache running
    concurrently (so all of C40 applies to them): what a stream has sent, plus the message it is
    about to send, is what its consumer has read. Streams of the other kind, subscriptions and
    the shutdown have no influence on the cache. *)
Theorem C55_streams_are_consumers : forall (K T : Type) (hash : kind -> T -> K) (keqb : K -> K -> bool) es s,
  srun hash keqb server_new es s ->
  forall k, reach_with (hash k) keqb (length (streams s)) anything (added k es)
              (mksys (get_cache s k) (map (as_consumer k) (streams s))).
Proof. exact C55_streams_are_consumers_lemma. Qed.
Print Assumptions C55_streams_are_consumers.

(** A client only receives messages of the kind it subscribed to that were really added. *)
Theorem C55_sent_were_added : forall (K T : Type) (hash : kind -> T -> K) (keqb : K -> K -> bool),
  (forall a b, keqb a b = true <-> a = b) ->
  forall es s, srun hash keqb server_new es s ->
  forall x d, In x (streams s) -> In d (s_sent x) -> exists w, In (SAdd (s_kind x) d w) es.
Proof. exact C55_sent_were_added_lemma. Qed.
Print Assumptions C55_sent_were_added.

(** A stream ends only after it has been entered and then EndSubscription for its id or the
    shutdown has removed it. *)
Theorem C55_ends_only_if_revoked : forall (K T : Type) (hash : kind -> T -> K) (keqb : K -> K -> bool) es s,
  srun hash keqb server_new es s ->
  forall i x, nth_error (streams s) i = Some x -> s_ph x = Done ->
  exists es1 es2 e, es = es1 ++ SEnter i :: es2 /\ In e es2 /\ revokes (s_id x) e.
Proof. exact C55_ends_only_if_revoked_lemma. Qed.
Print Assumptions C55_ends_only_if_revoked.

(** Once an id is not subscribed and no handler enters it again, every stream with this id sends
    at most one more message (none unless it was already past its test) and takes at most three
    more steps; *)
Theorem C55_after_end : forall (K T : Type) (hash : kind -> T -> K) (keqb : K -> K -> bool) (s s' : @server K T) es,
  srun hash keqb s es s' ->
  forall id, subscribed s id = false ->
  (forall j y, In (SEnter j) es -> nth_error (streams s') j = Some y -> s_id y <> id) ->
  forall i x, nth_error (streams s) i = Some x -> s_id x = id ->
  exists x' l, nth_error (streams s') i = Some x' /\ s_sent x' = s_sent x ++ l /\
    length l + messages_left x' <= messages_left x <= 1 /\
    count (own i) es + steps_left x' <= steps_left x <= 3 /\
    subscribed s' id = false.
Proof. exact C55_after_end_lemma. Qed.
Print Assumptions C55_after_end.

(** and a handler is never blocked except asleep: unless it has returned or sleeps, it can take
    its next step. *)
Theorem C55_only_sleep_blocks : forall (K T : Type) (hash : kind -> T -> K) (keqb : K -> K -> bool) (s : @server K T) i x,
  nth_error (streams s) i = Some x -> s_ph x <> Done -> s_ph x <> Sleeping ->
  exists e, own i e = true /\ sstep hash keqb s e <> None.
Proof. exact C55_only_sleep_blocks_lemma. Qed.
Print Assumptions C55_only_sleep_blocks.

(** A sleeping handler sleeps on, whatever happens, until a message of its kind is added, a
    spurious wake-up occurs or the shutdown's escape_wait picks it. *)
Theorem C55_sleeps_on : forall (K T : Type) (hash : kind -> T -> K) (keqb : K -> K -> bool) (s s' : @server K T) es,
  srun hash keqb s es s' ->
  forall i x, nth_error (streams s) i = Some x -> s_ph x = Sleeping ->
  (forall e, In e es -> ~ may_wake (s_kind x) i e) ->
  nth_error (streams s') i = Some x.
Proof. exact C55_sleeps_on_lemma. Qed.
Print Assumptions C55_sleeps_on.

(** When spawn_server has returned every handler has returned, and nothing is sent any more. *)
Theorem C55_returned : forall (K T : Type) (hash : kind -> T -> K) (keqb : K -> K -> bool) es s,
  srun hash keqb server_new es s -> stg s = Returned ->
  (forall x, In x (streams s) -> s_ph x = Done) /\
  forall es' s', srun hash keqb s es' s' -> streams s' = streams s /\ stg s' = Returned.
Proof. exact C55_returned_lemma. Qed.
Print Assumptions C55_returned.

(** Once Shutdown has been called with no id subscribed and every handler before its test, about
    to write or returned: whatever happens, the handlers and the server take only boundedly many
    more steps, and until spawn_server has returned one of these steps is possible. *)
Theorem C55_shutdown_completes : forall (K T : Type) (hash : kind -> T -> K) (keqb : K -> K -> bool) (s s' : @server K T) es,
  srun hash keqb s es s' ->
  stg s = Stopping -> (forall id, subscribed s id = false) -> (forall x, In x (streams s) -> will_return x) ->
  count progress es <= S (work s) /\
  (stg s' = Returned \/ exists e s'', progress e = true /\ sstep hash keqb s' e = Some (Ok s'')).
Proof. exact C55_shutdown_completes_lemma. Qed.
Print Assumptions C55_shutdown_completes.

(** Finding: a handler asleep when the shutdown's notifications are over keeps spawn_server from
    returning until another message of its kind is added (or a spurious wake-up). *)
Theorem C55_sleeper_blocks_shutdown : forall (K T : Type) (hash : kind -> T -> K) (keqb : K -> K -> bool) (s s' : @server K T) es,
  srun hash keqb s es s' -> stg s = Escaped \/ stg s = Stopping ->
  forall i x, nth_error (streams s) i = Some x -> s_ph x = Sleeping ->
  (forall e, In e es -> match e with SAdd k _ _ => k <> s_kind x | SWake j => j <> i | _ => True end) ->
  stg s' <> Returned /\ nth_error (streams s') i = Some x.
Proof. exact C55_sleeper_blocks_shutdown_lemma. Qed.
Print Assumptions C55_sleeper_blocks_shutdown.

(** Finding: a stream subscribed after the shutdown has cleared the subscriptions never returns,
    whatever is added or wakes it, unless its client ends the subscription; spawn_server does not
    return. *)
Theorem C55_late_subscriber_blocks_shutdown : forall (K T : Type) (hash : kind -> T -> K) (keqb : K -> K -> bool) (s s' : @server K T) es,
  srun hash keqb s es s' -> stg s <> Serving -> stg s <> Returned ->
  forall i x, nth_error (streams s) i = Some x -> subscribed s (s_id x) = true -> s_ph x <> Done ->
  ~ In (SEnd (s_id x)) es ->
  stg s' <> Returned /\ exists x', nth_error (streams s') i = Some x' /\ s_ph x' <> Done.
Proof. exact C55_late_subscriber_blocks_shutdown_lemma. Qed.
Print Assumptions C55_late_subscriber_blocks_shutdown.

(** Finding: one subscriber suffices for a shutdown that never completes. Its handler has tested
    the subscription just before clear_subscriptions, and goes to sleep after escape_wait. *)
Theorem C55_lost_wakeup_refuted : exists es (s : ex_server) x,
  ex_run server_new es s /\ stg s = Stopping /\ streams s = [x] /\ s_ph x = Sleeping /\ subs s = [] /\
  forall es' s', ex_run s es' s' ->
    (forall e, In e es' -> match e with SAdd k _ _ => k <> s_kind x | SWake j => j <> 0 | _ => True end) ->
    stg s' <> Returned.
Proof. exact C55_lost_wakeup_refuted_lemma. Qed.
Print Assumptions C55_lost_wakeup_refuted.

(** Finding: nor does it with two clients asleep on the same cache: escape_wait wakes only one. *)
Theorem C55_two_sleepers_refuted : exists es (s : ex_server) x y,
  ex_run server_new es s /\ stg s = Stopping /\ streams s = [x; y] /\ s_ph x = Done /\ s_ph y = Sleeping /\ subs s = [] /\
  forall es' s', ex_run s es' s' ->
    (forall e, In e es' -> match e with SAdd k _ _ => k <> s_kind y | SWake j => j <> 1 | _ => True end) ->
    stg s' <> Returned.
Proof. exact C55_two_sleepers_refuted_lemma. Qed.
Print Assumptions C55_two_sleepers_refuted.

(** Finding: a client that subscribes between clear_subscriptions and Shutdown blocks it until it
    unsubscribes. *)
Theorem C55_late_subscriber_refuted : exists es (s : ex_server) x,
  ex_run server_new es s /\ stg s = Stopping /\ streams s = [x] /\ s_id x = "a"%string /\
  forall es' s', ex_run s es' s' -> ~ In (SEnd "a"%string) es' -> stg s' <> Returned.
Proof. exact C55_late_subscriber_refuted_lemma. Qed.
Print Assumptions C55_late_subscriber_refuted.

(** Finding: EndSubscription ends nothing while its stream sleeps, and if the client subscribes
    again with the same id before the next message, the old stream is revived and both streams
    send. *)
Theorem C55_revived_refuted : exists es (s : ex_server) x y,
  ex_run server_new es s /\ streams s = [x; y] /\ s_id x = s_id y /\
  s_sent x = [(1, 10)] /\ s_sent y = [(1, 10)] /\
  (exists es1 es2 w, es = es1 ++ SEnd (s_id x) :: es2 /\ ~ In (SEnter 0) es2 /\ In (SAdd NodeK (1, 10) w) es2 /\ In (SWrite 0) es2).
Proof. exact C55_revived_refuted_lemma. Qed.
Print Assumptions C55_revived_refuted.

(** The hypotheses are met: two clients, messages of both kinds; one ends its subscription while
    about to write and the server then shuts down and returns. *)
Example C55_nonvacuous : exists es1 es2 (s1 s : ex_server) x y,
  ex_run server_new es1 s1 /\ ex_run s1 es2 s /\
  subscribed s1 "a"%string = false /\ ~ In (SEnter 0) es2 /\
  messages_left x = 1 /\ steps_left x = 2 /\ nth_error (streams s1) 0 = Some x /\ s_sent x = [(1, 10)] /\
  streams s = [mkstream NodeK "a"%string (Some 1) Done [(1, 10); (2, 20)]; y] /\ s_kind y = EdgeK /\ s_sent y = [(3, 30)] /\
  stg s = Returned /\ added NodeK es1 = [(1, 10); (2, 20)] /\ count (own 0) es2 = 2.
Proof. exact C55_nonvacuous_lemma. Qed.

(** and the situation of C55_shutdown_completes is reachable with a handler about to write. *)
Example C55_shutdown_nonvacuous : exists es (s : ex_server),
  ex_run server_new es s /\ stg s = Stopping /\ (forall id, subscribed s id = false) /\
  (forall x, In x (streams s) -> will_return x) /\ work s = 2.
Proof. exact C55_shutdown_nonvacuous_lemma. Qed.
