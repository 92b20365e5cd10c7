(** Vocabulary for the properties of the subscription streams (C55), in terms of the events of an
    execution. *)
From Coq Require Import String.
From Verif Require Import Common CacheModel SubModel.

Section Spec.
Context {T : Type}.

(** the messages of kind [k] added, oldest first *)
Definition added (k : kind) (es : list (@sevent T)) : list T :=
  flat_map (fun e => match e with SAdd k' d _ => if kind_eqb k' k then [d] else [] | _ => [] end) es.

(** events that remove [id] from the subscriptions *)
Definition revokes (id : string) (e : @sevent T) : Prop :=
  match e with SEnd id' => id' = id | SClear => True | _ => False end.

(** a step of handler [i] *)
Definition own (i : nat) (e : @sevent T) : bool :=
  match e with SEnter j | STest j | SRead j | SWrite j => j =? i | _ => false end.

(** events that may wake a sleeping handler [i] of kind [k] *)
Definition may_wake (k : kind) (i : nat) (e : @sevent T) : Prop :=
  match e with SAdd k' _ _ => k' = k | SWake j => j = i | SEscape _ => True | _ => False end.

(** how many events satisfy [p] *)
Definition count (p : @sevent T -> bool) (es : list (@sevent T)) : nat := length (filter p es).

(** a message a handler has taken from the cache but not written yet *)
Definition pending (x : @stream T) : list T := match s_ph x with Writing d => [d] | _ => [] end.

(** the stream seen as a consumer of the cache of kind [k] (CacheModel.v): what it took, and
    whether it sleeps; a stream of the other kind is a consumer that never reads *)
Definition as_consumer (k : kind) (x : @stream T) : @consumer T :=
  if kind_eqb (s_kind x) k
  then mkcons (s_iter x) (match s_ph x with Sleeping => true | _ => false end) (s_sent x ++ pending x)
  else mkcons None false [].

(** steps a handler has left after its subscription ended, and messages it may still send *)
Definition steps_left (x : @stream T) : nat :=
  match s_ph x with Reading => 3 | Writing _ => 2 | AtTest | Sleeping => 1 | Entering | Done => 0 end.
Definition messages_left (x : @stream T) : nat :=
  match s_ph x with Reading | Writing _ => 1 | _ => 0 end.

(** a handler that will not have to wait for a message *)
Definition will_return (x : @stream T) : Prop :=
  match s_ph x with AtTest | Writing _ | Done => True | _ => False end.

End Spec.

(** a step of some handler, or the return of spawn_server *)
Definition progress {T} (e : @sevent T) : bool :=
  match e with SEnter _ | STest _ | SRead _ | SWrite _ | SReturn => true | _ => false end.

(** the steps all handlers have left *)
Definition work {K T} (s : @server K T) : nat := fold_right Nat.add 0 (map steps_left (streams s)).
