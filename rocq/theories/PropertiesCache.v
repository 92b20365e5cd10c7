(** Generated by tools/genprops.py from CacheLaws.v: property statements only. *)
From Verif Require Import Common CacheModel CacheSpec CacheProofs.
From Verif Require Import CacheLaws.

(** The specification [currents] is "the latest value of each key": its values are exactly those
    that are the last of their key in the history, and no key occurs twice. *)
Theorem C40_currents_are_latest : forall (K T : Type) (hash : T -> K) (keqb : K -> K -> bool),
  (forall a b, keqb a b = true <-> a = b) ->
  forall ds,
    (forall d, In d (values ds (currents hash keqb ds)) <-> last_with hash keqb (hash d) ds = Some d) /\
    NoDup (map hash (values ds (currents hash keqb ds))) /\
    (forall L1 i L2 j, currents hash keqb ds = L1 ++ i :: L2 -> In j L2 -> i < j).
Proof. exact C40_currents_are_latest_lemma. Qed.
Print Assumptions C40_currents_are_latest.

(** Adding values never fails. A consumer that has read nothing receives exactly the latest
    value of every key, in order of last update, and then has to wait. *)
Theorem C40_fresh_consumer : forall (K T : Type) (hash : T -> K) (keqb : K -> K -> bool),
  (forall a b, keqb a b = true <-> a = b) ->
  forall ds, exists c, adds hash keqb cache_new ds = Ok c /\
  forall m, exists it,
    reads (length (currents hash keqb ds) + m) c None =
    Ok (map Some (values ds (currents hash keqb ds)) ++ repeat None m, it).
Proof. exact C40_fresh_consumer_lemma. Qed.
Print Assumptions C40_fresh_consumer.

(** A consumer whose last value (number [i]) is still the latest of its key receives exactly
    the values updated after it, in order, and then has to wait. *)
Theorem C40_current_consumer : forall (K T : Type) (hash : T -> K) (keqb : K -> K -> bool),
  (forall a b, keqb a b = true <-> a = b) ->
  forall ds c L1 i L2, adds hash keqb cache_new ds = Ok c -> currents hash keqb ds = L1 ++ i :: L2 ->
  forall m, exists it,
    reads (length L2 + m) c (Some i) = Ok (map Some (values ds L2) ++ repeat None m, it).
Proof. exact C40_current_consumer_lemma. Qed.
Print Assumptions C40_current_consumer.

(** A consumer whose last value (number [i]) has been replaced: the read is undefined (a null
    pointer is dereferenced) exactly when every value added up to and including number [i+1] has
    the same key. Otherwise it resumes at the current value the chain of replaced values leads
    to, or at the one after it if that is the oldest. *)
Theorem C40_replaced_consumer : forall (K T : Type) (hash : T -> K) (keqb : K -> K -> bool),
  (forall a b, keqb a b = true <-> a = b) ->
  forall ds c i, adds hash keqb cache_new ds = Ok c -> i < length ds -> current hash keqb ds i = false ->
  (get_latest c (Some i) = UB <-> forall j, j <= S i -> same_key hash keqb ds j i = true) /\
  (get_latest c (Some i) <> UB ->
   exists r j, leads hash keqb ds i r /\ current hash keqb ds j = true /\
     get_latest c (Some i) = Ok (nth_error ds j, Some j) /\
     (oldest hash keqb ds = Some r -> next_current hash keqb ds r = Some j) /\
     (oldest hash keqb ds <> Some r -> j = r)).
Proof. exact C40_replaced_consumer_lemma. Qed.
Print Assumptions C40_replaced_consumer.

(** With any number of producers and consumers in any interleaving: as long as the key of the
    oldest value is only updated while consumer [i] has read nothing yet or holds a value that is
    still current and not that oldest one, no read of consumer [i] fails, and whenever there is
    nothing left for it to read, the last value it received for every key is the latest added. *)
Theorem C40_no_loss : forall (K T : Type) (hash : T -> K) (keqb : K -> K -> bool),
  (forall a b, keqb a b = true <-> a = b) ->
  forall n i ds s k, reach_with hash keqb n (oldest_kept hash keqb i) ds s ->
  nth_error (consumers s) i = Some k ->
  exists v it, get_latest (shared s) (citer k) = Ok (v, it) /\
    match v with
    | Some d => last_with hash keqb (hash d) ds = Some d
    | None => forall key, last_with hash keqb key (got k) = last_with hash keqb key ds
    end.
Proof. exact C40_no_loss_lemma. Qed.
Print Assumptions C40_no_loss.

(** With one consumer: whenever it sleeps in get_latest there is nothing for it to read. *)
Theorem C40_one_consumer_never_oversleeps : forall (K T : Type) (hash : T -> K) (keqb : K -> K -> bool),
  (forall a b, keqb a b = true <-> a = b) ->
  forall ds s k, reach_with hash keqb 1 anything ds s -> nth_error (consumers s) 0 = Some k ->
  waiting k = true -> get_latest (shared s) (citer k) = Ok (None, citer k).
Proof. exact C40_one_consumer_never_oversleeps_lemma. Qed.
Print Assumptions C40_one_consumer_never_oversleeps.

(** Finding: add a value, read it, update the same key, read again: undefined behaviour. *)
Theorem C40_crash_refuted : exists ds s,
  ex_reach 1 anything ds s /\ enabled s (Read 0) /\ exec (@fst nat nat) Nat.eqb s (Read 0) = UB.
Proof. exact C40_crash_refuted_lemma. Qed.
Print Assumptions C40_crash_refuted.

(** Finding: a consumer misses a value. After adding keys 1 and 2, with key 1 read and then
    updated, the consumer gets the new value of key 1 and then waits: it never sees key 2. *)
Theorem C40_lost_value_refuted : exists ds s k,
  ex_reach 1 anything ds s /\ nth_error (consumers s) 0 = Some k /\ waiting k = true /\
  last_with (@fst nat nat) Nat.eqb 2 ds = Some (2,20) /\ last_with (@fst nat nat) Nat.eqb 2 (got k) = None.
Proof. exact C40_lost_value_refuted_lemma. Qed.
Print Assumptions C40_lost_value_refuted.

(** Finding: a value can be delivered twice although it was added once. *)
Theorem C40_delivered_twice_refuted : exists ds s k,
  ex_reach 1 anything ds s /\ nth_error (consumers s) 0 = Some k /\
  filter (fun d => fst d =? 2) ds = [(2,20)] /\
  got k = [(1,10); (2,20); (3,30); (2,20); (3,31)].
Proof. exact C40_delivered_twice_refuted_lemma. Qed.
Print Assumptions C40_delivered_twice_refuted.

(** Finding: with two consumers asleep an addition wakes only one; the other stays asleep
    although there is a value for it. *)
Theorem C40_two_consumers_oversleep_refuted : exists ds s k d,
  ex_reach 2 anything ds s /\ nth_error (consumers s) 1 = Some k /\ waiting k = true /\
  get_latest (shared s) (citer k) = Ok (Some d, Some 0).
Proof. exact C40_two_consumers_oversleep_refuted_lemma. Qed.
Print Assumptions C40_two_consumers_oversleep_refuted.

(** The hypotheses of the theorems are met: three keys, one of them updated while the consumer
    holds an older value; the consumer catches up. *)
Example C40_nonvacuous :
  currents (@fst nat nat) Nat.eqb [(1,10); (2,20); (3,30); (2,21)] = [0; 2; 3] /\
  current (@fst nat nat) Nat.eqb [(1,10); (2,20); (3,30); (2,21)] 1 = false /\
  exists s, ex_reach 1 (oldest_kept (@fst nat nat) Nat.eqb 0) [(1,10); (2,20); (2,21)] s /\
            exists k, nth_error (consumers s) 0 = Some k /\ got k = [(1,10); (2,20)].
Proof. exact C40_nonvacuous_lemma. Qed.
