(** C40: the shared cache between the graph and the visualiser. *)
From Verif Require Import Common CacheModel CacheSpec CacheProofs.

(** The specification [currents] is "the latest value of each key": its values are exactly those
    that are the last of their key in the history, and no key occurs twice. *)
Lemma C40_currents_are_latest_lemma : forall (K T : Type) (hash : T -> K) (keqb : K -> K -> bool),
  (forall a b, keqb a b = true <-> a = b) ->
  forall ds,
    (forall d, In d (values ds (currents hash keqb ds)) <-> last_with hash keqb (hash d) ds = Some d) /\
    NoDup (map hash (values ds (currents hash keqb ds))) /\
    (forall L1 i L2 j, currents hash keqb ds = L1 ++ i :: L2 -> In j L2 -> i < j).
Proof.
  intros K T hash keqb Hk ds. repeat split.
  - intros Hin. apply (last_with_current hash keqb Hk). unfold values in Hin. apply in_flat_map in Hin as (i & Hi & Hin).
    apply filter_In in Hi as [_ Hi]. destruct (nth_error ds i) as [x|] eqn:E; [|easy]. destruct Hin as [->|[]]. eauto.
  - intros H. apply (last_with_current hash keqb Hk) in H as (j & Hc & Ed & _).
    apply in_flat_map. exists j. rewrite Ed. split; [|now left]. apply filter_In. split; auto.
    apply in_seq. pose proof (current_lt hash keqb Hk _ _ Hc). lia.
  - assert (G : forall L, (forall i, In i L -> current hash keqb ds i = true) -> NoDup L -> NoDup (map hash (values ds L))).
    { induction L as [|i L IH]; intros HL HN; [constructor|]. inversion HN; subst.
      pose proof (HL i (or_introl eq_refl)) as Hi. pose proof (current_lt hash keqb Hk _ _ Hi) as Hil.
      destruct (nth_error ds i) as [x|] eqn:Ex; [|apply nth_error_None in Ex; lia].
      rewrite (values_cons ds i L x Ex). simpl. constructor; [|apply IH; auto; intros; apply HL; now right].
      intros Hin. apply in_map_iff in Hin as (y & Ey & Hy). unfold values in Hy. apply in_flat_map in Hy as (j & Hj & Hy).
      destruct (nth_error ds j) as [y'|] eqn:Ej; [|easy]. destruct Hy as [->|[]].
      assert (i = j) by (apply (current_inj hash keqb Hk ds i j x y); auto; apply HL; now right). congruence. }
    apply G.
    + intros i Hi. now apply filter_In in Hi.
    + apply NoDup_filter, seq_NoDup.
  - intros L1 i L2 j E Hj. destruct (currents_split hash keqb ds L1 i L2 E) as [_ ->].
    unfold rest in Hj. apply filter_In in Hj as [Hj _]. apply in_seq in Hj. lia.
Qed.

(** Adding values never fails. A consumer that has read nothing receives exactly the latest
    value of every key, in order of last update, and then has to wait. *)
Lemma C40_fresh_consumer_lemma : forall (K T : Type) (hash : T -> K) (keqb : K -> K -> bool),
  (forall a b, keqb a b = true <-> a = b) ->
  forall ds, exists c, adds hash keqb cache_new ds = Ok c /\
  forall m, exists it,
    reads (length (currents hash keqb ds) + m) c None =
    Ok (map Some (values ds (currents hash keqb ds)) ++ repeat None m, it).
Proof.
  intros K T hash keqb Hk ds. destruct (adds_ok hash keqb Hk ds [] cache_new (Rep_new hash keqb)) as (c & E & R).
  exists c. split; auto. intros m. apply (reads_fresh hash keqb Hk ds c m R).
Qed.

(** A consumer whose last value (number [i]) is still the latest of its key receives exactly
    the values updated after it, in order, and then has to wait. *)
Lemma C40_current_consumer_lemma : forall (K T : Type) (hash : T -> K) (keqb : K -> K -> bool),
  (forall a b, keqb a b = true <-> a = b) ->
  forall ds c L1 i L2, adds hash keqb cache_new ds = Ok c -> currents hash keqb ds = L1 ++ i :: L2 ->
  forall m, exists it,
    reads (length L2 + m) c (Some i) = Ok (map Some (values ds L2) ++ repeat None m, it).
Proof.
  intros K T hash keqb Hk ds c L1 i L2 Hc E m.
  destruct (adds_ok hash keqb Hk ds [] cache_new (Rep_new hash keqb)) as (c' & E' & R).
  rewrite Hc in E'. injection E' as <-. destruct (currents_split hash keqb ds L1 i L2 E) as [Hi ->].
  apply (reads_current hash keqb Hk ds c R (length ds) i m); auto. lia.
Qed.

(** A consumer whose last value (number [i]) has been replaced: the read is undefined (a null
    pointer is dereferenced) exactly when every value added up to and including number [i+1] has
    the same key. Otherwise it resumes at the current value the chain of replaced values leads
    to, or at the one after it if that is the oldest. *)
Lemma C40_replaced_consumer_lemma : forall (K T : Type) (hash : T -> K) (keqb : K -> K -> bool),
  (forall a b, keqb a b = true <-> a = b) ->
  forall ds c i, adds hash keqb cache_new ds = Ok c -> i < length ds -> current hash keqb ds i = false ->
  (get_latest c (Some i) = UB <-> forall j, j <= S i -> same_key hash keqb ds j i = true) /\
  (get_latest c (Some i) <> UB ->
   exists r j, leads hash keqb ds i r /\ current hash keqb ds j = true /\
     get_latest c (Some i) = Ok (nth_error ds j, Some j) /\
     (oldest hash keqb ds = Some r -> next_current hash keqb ds r = Some j) /\
     (oldest hash keqb ds <> Some r -> j = r)).
Proof.
  intros K T hash keqb Hk ds c i Hc Hi Hcur.
  destruct (adds_ok hash keqb Hk ds [] cache_new (Rep_new hash keqb)) as (c' & E' & R).
  rewrite Hc in E'. injection E' as <-. simpl in R.
  assert (Hlen : S i < length ds).
  { destruct (replaced_some hash keqb Hk ds i Hi Hcur) as (t & _ & Ht & _). lia. }
  destruct (read_stale hash keqb Hk ds c i R Hi Hcur) as [(j & (r & L1 & L2 & L3) & Hj & E)|[Ho E]].
  - split.
    + rewrite E. split; [discriminate|]. intros H. exfalso.
      destruct (only_key_forward hash keqb Hk ds i (conj Hlen H)) as (_ & _ & Hf). inversion L1; subst; congruence.
    + intros _. exists r, j. repeat split; auto.
      * intros Eo. rewrite Eo in L3. cbn in L3. now rewrite Nat.eqb_refl in L3.
      * intros Eo. destruct (ptr_eqb (oldest hash keqb ds) (Some r)) eqn:Eb; auto. exfalso.
        destruct (oldest hash keqb ds) as [p|]; [|discriminate]. cbn in Eb. apply Nat.eqb_eq in Eb. congruence.
  - split; [|congruence]. split; auto. intros _. apply Ho.
Qed.

(** With any number of producers and consumers in any interleaving: as long as the key of the
    oldest value is only updated while consumer [i] has read nothing yet or holds a value that is
    still current and not that oldest one, no read of consumer [i] fails, and whenever there is
    nothing left for it to read, the last value it received for every key is the latest added. *)
Lemma C40_no_loss_lemma : forall (K T : Type) (hash : T -> K) (keqb : K -> K -> bool),
  (forall a b, keqb a b = true <-> a = b) ->
  forall n i ds s k, reach_with hash keqb n (oldest_kept hash keqb i) ds s ->
  nth_error (consumers s) i = Some k ->
  exists v it, get_latest (shared s) (citer k) = Ok (v, it) /\
    match v with
    | Some d => last_with hash keqb (hash d) ds = Some d
    | None => forall key, last_with hash keqb key (got k) = last_with hash keqb key ds
    end.
Proof.
  intros K T hash keqb Hk n i ds s k HR Ek.
  destruct (reach_CInv hash keqb Hk n i ds s HR k Ek) as [rn HI].
  pose proof (reach_rep hash keqb Hk _ _ _ _ HR) as R.
  destruct (CInv_read hash keqb Hk ds (shared s) k rn R HI) as (v & it & E & HV).
  exists v, it. split; auto. destruct v as [d|].
  - destruct HV as (j & _ & Ed & Hc & _). apply (last_with_current hash keqb Hk). eauto.
  - destruct HV as [_ HV]. now apply (view_latest hash keqb Hk ds k rn).
Qed.

(** With one consumer: whenever it sleeps in get_latest there is nothing for it to read. *)
Lemma C40_one_consumer_never_oversleeps_lemma : forall (K T : Type) (hash : T -> K) (keqb : K -> K -> bool),
  (forall a b, keqb a b = true <-> a = b) ->
  forall ds s k, reach_with hash keqb 1 anything ds s -> nth_error (consumers s) 0 = Some k ->
  waiting k = true -> get_latest (shared s) (citer k) = Ok (None, citer k).
Proof. intros K T hash keqb Hk ds s k. apply (sleeps_caught_up hash keqb). Qed.

(** keys and values for the examples: the key is the first component *)
Notation ex_reach := (reach_with (@fst nat nat) Nat.eqb).

(** Finding: add a value, read it, update the same key, read again: undefined behaviour. *)
Lemma C40_crash_refuted_lemma : exists ds s,
  ex_reach 1 anything ds s /\ enabled s (Read 0) /\ exec (@fst nat nat) Nat.eqb s (Read 0) = UB.
Proof.
  let r := eval vm_compute in (runs (@fst nat nat) Nat.eqb [] (mksys cache_new (repeat (mkcons None false []) 1))
    [Add (1,10) None; Read 0; Add (1,11) None]) in
  match r with Ok (?a, ?b) => exists a, b end.
  repeat split.
  - eapply (runs_reach (@fst nat nat) Nat.eqb 1 [Add (1,10) None; Read 0; Add (1,11) None]); [apply rw_new|vm_compute; reflexivity].
  - apply enabledb_ok. reflexivity.
Qed.

(** Finding: a consumer misses a value. After adding keys 1 and 2, with key 1 read and then
    updated, the consumer gets the new value of key 1 and then waits: it never sees key 2. *)
Lemma C40_lost_value_refuted_lemma : exists ds s k,
  ex_reach 1 anything ds s /\ nth_error (consumers s) 0 = Some k /\ waiting k = true /\
  last_with (@fst nat nat) Nat.eqb 2 ds = Some (2,20) /\ last_with (@fst nat nat) Nat.eqb 2 (got k) = None.
Proof.
  let r := eval vm_compute in (runs (@fst nat nat) Nat.eqb [] (mksys cache_new (repeat (mkcons None false []) 1))
    [Add (1,10) None; Add (2,20) None; Read 0; Add (1,11) None; Read 0; Read 0]) in
  match r with Ok (?a, ?b) => exists a, b; let k := eval vm_compute in (nth_error (consumers b) 0) in match k with Some ?k => exists k end end.
  repeat split.
  eapply (runs_reach (@fst nat nat) Nat.eqb 1 [Add (1,10) None; Add (2,20) None; Read 0; Add (1,11) None; Read 0; Read 0]);
    [apply rw_new|vm_compute; reflexivity].
Qed.

(** Finding: a value can be delivered twice although it was added once. *)
Lemma C40_delivered_twice_refuted_lemma : exists ds s k,
  ex_reach 1 anything ds s /\ nth_error (consumers s) 0 = Some k /\
  filter (fun d => fst d =? 2) ds = [(2,20)] /\
  got k = [(1,10); (2,20); (3,30); (2,20); (3,31)].
Proof.
  let r := eval vm_compute in (runs (@fst nat nat) Nat.eqb [] (mksys cache_new (repeat (mkcons None false []) 1))
    [Add (1,10) None; Add (2,20) None; Add (3,30) None; Read 0; Read 0; Read 0; Add (3,31) None; Read 0; Read 0]) in
  match r with Ok (?a, ?b) => exists a, b; let k := eval vm_compute in (nth_error (consumers b) 0) in match k with Some ?k => exists k end end.
  repeat split.
  eapply (runs_reach (@fst nat nat) Nat.eqb 1 [Add (1,10) None; Add (2,20) None; Add (3,30) None; Read 0; Read 0; Read 0; Add (3,31) None; Read 0; Read 0]);
    [apply rw_new|vm_compute; reflexivity].
Qed.

(** Finding: with two consumers asleep an addition wakes only one; the other stays asleep
    although there is a value for it. *)
Lemma C40_two_consumers_oversleep_refuted_lemma : exists ds s k d,
  ex_reach 2 anything ds s /\ nth_error (consumers s) 1 = Some k /\ waiting k = true /\
  get_latest (shared s) (citer k) = Ok (Some d, Some 0).
Proof.
  let r := eval vm_compute in (runs (@fst nat nat) Nat.eqb [] (mksys cache_new (repeat (mkcons None false []) 2))
    [Read 0; Read 1; Add (1,10) (Some 0)]) in
  match r with Ok (?a, ?b) => exists a, b; let k := eval vm_compute in (nth_error (consumers b) 1) in match k with Some ?k => exists k end end.
  exists (1,10). repeat split.
  eapply (runs_reach (@fst nat nat) Nat.eqb 2 [Read 0; Read 1; Add (1,10) (Some 0)]); [apply rw_new|vm_compute; reflexivity].
Qed.

(** The hypotheses of the theorems are met: three keys, one of them updated while the consumer
    holds an older value; the consumer catches up. *)
Lemma C40_nonvacuous_lemma :
  currents (@fst nat nat) Nat.eqb [(1,10); (2,20); (3,30); (2,21)] = [0; 2; 3] /\
  current (@fst nat nat) Nat.eqb [(1,10); (2,20); (3,30); (2,21)] 1 = false /\
  exists s, ex_reach 1 (oldest_kept (@fst nat nat) Nat.eqb 0) [(1,10); (2,20); (2,21)] s /\
            exists k, nth_error (consumers s) 0 = Some k /\ got k = [(1,10); (2,20)].
Proof.
  repeat split.
  eexists. split.
  - eapply (rw_step _ _ 1 _ [(1,10); (2,20)] _ (Add (2,21) None)).
    + eapply (rw_step _ _ 1 _ [(1,10); (2,20)] _ (Read 0)).
      * eapply (rw_step _ _ 1 _ [(1,10); (2,20)] _ (Read 0)).
        -- eapply (rw_step _ _ 1 _ [(1,10)] _ (Add (2,20) None)).
           ++ eapply (rw_step _ _ 1 _ [] _ (Add (1,10) None)); [apply rw_new|intros o x Eo; discriminate| |vm_compute; reflexivity].
              apply enabledb_ok; reflexivity.
           ++ intros o x Eo. vm_compute in Eo. injection Eo as <-. intros Ex. injection Ex as <-. discriminate.
           ++ apply enabledb_ok; reflexivity.
           ++ vm_compute; reflexivity.
        -- exact I.
        -- apply enabledb_ok; reflexivity.
        -- vm_compute; reflexivity.
      * exact I.
      * apply enabledb_ok; reflexivity.
      * vm_compute; reflexivity.
    + intros o x Eo. vm_compute in Eo. injection Eo as <-. intros Ex. injection Ex as <-. discriminate.
    + apply enabledb_ok; reflexivity.
    + vm_compute; reflexivity.
  - eexists. split; reflexivity.
Qed.
