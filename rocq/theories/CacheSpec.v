(** Specification for the shared cache, in terms of the list [ds] of all values added so far.
    Value number [i] is [nth i ds]. *)
From Verif Require Import Common.
From Verif Require Import CacheModel.

Section Spec.
Context {K T : Type} (hash : T -> K) (keqb : K -> K -> bool).

(** values number [i] and [j] exist and have the same key *)
Definition same_key (ds : list T) (i j : nat) : bool :=
  match nth_error ds i, nth_error ds j with
  | Some x, Some y => keqb (hash x) (hash y)
  | _, _ => false
  end.

(** number [i] is the latest value of its key *)
Definition current (ds : list T) (i : nat) : bool :=
  (i <? length ds) && negb (existsb (fun j => same_key ds i j) (seq (S i) (length ds - S i))).

(** the numbers of the current values, i.e. the latest value of each key in order of last update *)
Definition currents (ds : list T) : list nat := filter (current ds) (seq 0 (length ds)).

(** the values with these numbers *)
Definition values (ds : list T) (l : list nat) : list T :=
  flat_map (fun i => match nth_error ds i with Some d => [d] | None => [] end) l.

(** the least current number above [i]; the greatest below [i]; the oldest current value *)
Definition next_current (ds : list T) (i : nat) : option nat := find (current ds) (seq (S i) (length ds - S i)).
Definition prev_current (ds : list T) (i : nat) : option nat := find (current ds) (rev (seq 0 i)).
Definition oldest (ds : list T) : option nat := find (current ds) (seq 0 (length ds)).

(** the addition that replaced value number [i] *)
Definition replaced_at (ds : list T) (i : nat) : option nat :=
  find (fun j => same_key ds i j) (seq (S i) (length ds - S i)).

(** where the replaced value [i] points to: its successor among the values that were current
    when it was replaced, or its predecessor if it was the newest, or nothing *)
Definition forward (ds : list T) (i : nat) : option nat :=
  match replaced_at ds i with
  | None => None
  | Some t =>
    match next_current (firstn t ds) i with
    | Some j => Some j
    | None => prev_current (firstn t ds) i
    end
  end.

(** following these pointers from [i] leads to the current value [r] *)
Inductive leads (ds : list T) : nat -> nat -> Prop :=
| leads_here i : current ds i = true -> leads ds i i
| leads_on i j r : current ds i = false -> forward ds i = Some j -> leads ds j r -> leads ds i r.

(** following them from [i] ends in a null pointer *)
Inductive leads_nowhere (ds : list T) : nat -> Prop :=
| nowhere_here i : i < length ds -> current ds i = false -> forward ds i = None -> leads_nowhere ds i
| nowhere_on i j : current ds i = false -> forward ds i = Some j -> leads_nowhere ds j -> leads_nowhere ds i.

(** the latest value of a key: the last one in the list that has it *)
Definition last_with (k : K) (l : list T) : option T := find (fun d => keqb (hash d) k) (rev l).

(** histories whose steps all satisfy [allow] (given the values added before the step) *)
Inductive reach_with (n : nat) (allow : list T -> @sys K T -> @event T -> Prop) : list T -> @sys K T -> Prop :=
| rw_new : reach_with n allow [] (mksys cache_new (repeat (mkcons None false []) n))
| rw_step ds s e s' :
    reach_with n allow ds s -> allow ds s e -> enabled s e -> exec hash keqb s e = Ok s' ->
    reach_with n allow (match e with Add d _ => ds ++ [d] | _ => ds end) s'.

(** no restriction on the steps *)
Definition anything (ds : list T) (s : @sys K T) (e : @event T) : Prop := True.

(** a step at which the key of the oldest value is not updated, unless consumer [i] has read
    nothing yet, or the value it read last is still current and is not that oldest value *)
Definition oldest_kept (i : nat) (ds : list T) (s : @sys K T) (e : @event T) : Prop :=
  match e with
  | Add d _ =>
    forall o x, oldest ds = Some o -> nth_error ds o = Some x -> hash x = hash d ->
    forall k, nth_error (consumers s) i = Some k ->
    match citer k with None => True | Some c => current ds c = true /\ c <> o end
  | _ => True
  end.

End Spec.
