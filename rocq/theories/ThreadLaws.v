(** Laws of stoppable threads. *)
From Coq Require Import Lia.
From Verif Require Import Common ThreadModel ThreadSpec ThreadProofs.

(** ================= C52 ================= *)

(** In every execution, stop_throw ends the thread that calls it exactly when stop was called for
    that thread before. *)
Lemma C52_throw_lemma : forall es s w, execution es s -> at_phase s w Running ->
  exists s', tstep s (WThrow w) = Some (Ok s') /\ (at_phase s' w Ended <-> stopped es w) /\ (at_phase s' w Running <-> ~ stopped es w).
Proof.
  intros es s w H (x & Hx & P). pose proof (flag_iff es s H w x Hx) as F.
  assert (T : exists s', tstep s (WThrow w) = Some (Ok s')) by (cbn [tstep]; unfold on_worker; rewrite Hx, P; eauto). destruct T as [s' T].
  exists s'. split; auto. pose proof (step_old s _ s' w x T Hx) as Hx'. cbn [wnext] in Hx'. rewrite Nat.eqb_refl in Hx'. rewrite <- F. unfold at_phase. rewrite Hx'.
  destruct (flag x); split; split; try (intros (y & C & D); injection C as <-; cbn in D; congruence); try discriminate; try congruence; eauto; intros C; destruct (C eq_refl).
Qed.

(** stop_wait returns - whatever wakes it - only when stop was called for the thread before, and
    does return when it looks after that. *)
Lemma C52_wait_lemma : forall es s w, execution es s -> at_phase s w AtCheck ->
  exists s', tstep s (WCheck w) = Some (Ok s') /\ (at_phase s' w Running <-> stopped es w) /\ (at_phase s' w ToSleep <-> ~ stopped es w).
Proof.
  intros es s w H (x & Hx & P). pose proof (flag_iff es s H w x Hx) as F.
  assert (T : exists s', tstep s (WCheck w) = Some (Ok s')) by (cbn [tstep]; unfold on_worker; rewrite Hx, P; eauto). destruct T as [s' T].
  exists s'. split; auto. pose proof (step_old s _ s' w x T Hx) as Hx'. cbn [wnext] in Hx'. rewrite Nat.eqb_refl in Hx'. rewrite <- F. unfold at_phase. rewrite Hx'.
  destruct (flag x); split; split; try (intros (y & C & D); injection C as <-; cbn in D; congruence); try discriminate; try congruence; eauto; intros C; destruct (C eq_refl).
Qed.

(** A thread belongs to at most one object, which also stops it. A thread that has not ended
    and was never detached belongs to an object: when its object's join or destructor has
    returned, the thread has ended. *)
Lemma C52_ownership_lemma : forall es s, execution es s ->
  (forall i j w, holds s i w -> holds s j w -> i = j) /\
  (forall i w, holds s i w -> aims s i w) /\
  (forall w, w < length (workers s) -> at_phase s w Ended \/ detached es w \/ exists i, holds s i w).
Proof.
  intros es s H. pose proof (run_Inv es s H) as I. split; [apply I|]. split; [apply I|]. intros w L.
  destruct (nth_error (workers s) w) as [x|] eqn:Hx; [|apply nth_error_None in Hx; lia]. destruct (not_lost es s H w x Hx) as [P|P]; auto. left. now exists x.
Qed.
Lemma C52_join_lemma : forall es s s' i w, execution es s -> tstep s OJoined = Some (Ok s') -> owner s = Joining i w \/ owner s = Dying i w ->
  at_phase s' w Ended /\ owner s' = Idle /\ (forall j, ~ holds s' j w) /\ (owner s = Dying i w -> forall o, ~ live_obj s' i o).
Proof.
  intros es s s' i w H T Ho. pose proof (run_Inv es s H) as I. pose proof (i_owner s I) as Ow.
  assert (Hh : holds s i w) by (destruct Ho as [E|E]; rewrite E in Ow; exact Ow). destruct Hh as (o & Lo & Wo). pose proof (nth_len _ _ _ Lo) as Li.
  cbn [tstep] in T. destruct Ho as [Ho|Ho]; rewrite Ho in T; (destruct (ended s w) eqn:Ee; [|discriminate]); apply ended_iff in Ee.
  - unfold live_obj in Lo. rewrite Lo in T. injection T as <-. split; [exact Ee|]. split; [reflexivity|]. split; [|congruence].
    intros j (o' & Lo' & Wo'). apply (set_live s i _ j o') in Lo' as [(-> & _ & C)|(N & Lo')]; [injection C as <-; discriminate|].
    apply N. split; [|exact Li]. apply (i_one s I i j w); [now exists o|now exists o'].
  - injection T as <-. split; [exact Ee|]. split; [reflexivity|]. split.
    + intros j (o' & Lo' & Wo'). apply (set_live s i _ j o') in Lo' as [(-> & _ & C)|(N & Lo')]; [discriminate|].
      apply N. split; [|exact Li]. apply (i_one s I i j w); [now exists o|now exists o'].
    + intros _ o' Lo'. apply (set_live s i _ i o') in Lo' as [(_ & _ & C)|(N & _)]; [discriminate|]. apply N. auto.
Qed.

(** Moving hands the thread over; both objects can still stop it. *)
Lemma C52_move_lemma : forall es s i o, execution es s -> owner s = Idle -> live_obj s i o -> exists s', tstep s (OMove i) = Some (Ok s') /\
  let n := length (objs s) in workers s' = workers s /\
  (forall w, holds s' n w <-> holds s i w) /\ (forall w, ~ holds s' i w) /\ (forall w, aims s' n w <-> aims s i w) /\ (forall w, aims s' i w <-> aims s i w) /\
  (forall j, j <> i -> j < n -> nth_error (objs s') j = nth_error (objs s) j).
Proof.
  intros es s i o H Ho Lo. pose proof (nth_len _ _ _ Lo) as Li. assert (Lo' := Lo). unfold live_obj in Lo'. eexists. split; [cbn [tstep]; unfold on_obj; rewrite Ho, Lo'; reflexivity|]. cbn zeta. set (s' := set_obj _ _ _).
  assert (En : nth_error (objs s') (length (objs s)) = Some (Some o)) by (unfold s'; cbn [set_obj objs]; rewrite nth_error_set_nth_neq by lia; rewrite nth_error_app2, Nat.sub_diag by lia; reflexivity).
  assert (Ei : nth_error (objs s') i = Some (Some (mkobj None (flg o)))) by (unfold s'; cbn [set_obj objs]; rewrite nth_error_set_nth_eq by (rewrite app_length; cbn; lia); reflexivity).
  split; [reflexivity|]. unfold holds, aims, live_obj. rewrite En, Ei, Lo'. split; [tauto|]. split; [intros w (q & C & D); injection C as <-; discriminate|]. split; [tauto|]. split.
  - intros w. split; intros (q & C & D); injection C as <-; eauto.
  - intros j Hj L. unfold s'. cbn [set_obj objs]. rewrite nth_error_set_nth_neq by lia. rewrite nth_error_app1; auto.
Qed.

(** When a call is undefined: stop on an object that was never given a thread, or whose thread
    has ended - already, or before the call gets to notify it. *)
Lemma C52_undefined_lemma : forall es s e, execution es s ->
  (tstep s e = Some UB <->
     (exists i o, e = OStop i /\ owner s = Idle /\ live_obj s i o /\ forall w, aims s i w -> at_phase s w Ended) \/
     (exists w, e = ONotify /\ owner s = Notifying w /\ at_phase s w Ended)).
Proof.
  intros es s e H. pose proof (run_Inv es s H) as I. split.
  - intros T. destruct e as [| |i|i j|i| |i| |i|i|v|v|v|v|v|v]; cbn [tstep] in T; unfold on_obj, on_worker in T.
    all: try (repeat cases_in T; discriminate).
    + left. destruct (owner s) eqn:Ho; try discriminate. destruct (nth_error (objs s) i) as [[o|]|] eqn:Lo; try discriminate. exists i, o. split; auto. split; auto. split; [exact Lo|].
      intros w (q & Lq & Fq). unfold live_obj in Lq. rewrite Lo in Lq. injection Lq as <-. rewrite Fq in T. destruct (ended s w) eqn:E; [now apply ended_iff|].
      assert (L : w < length (workers s)) by (apply (i_bound s I i); now exists o). destruct (nth_error (workers s) w) eqn:N; [discriminate|]. apply nth_error_None in N. lia.
    + right. destruct (owner s) as [|w| |] eqn:Ho; try discriminate. exists w. split; auto. split; auto. pose proof (i_owner s I) as Ow. rewrite Ho in Ow.
      destruct (nth_error (workers s) w) as [x|] eqn:N; [|apply nth_error_None in N; lia]. exists x. split; auto. destruct (ph x); congruence.
  - intros [(i & o & -> & Ho & Lo & A)|(w & -> & Ho & x & Hx & P)]; cbn [tstep]; unfold on_obj; rewrite Ho.
    + assert (Lo' := Lo). unfold live_obj in Lo'. rewrite Lo'. destruct (flg o) as [w|] eqn:F; auto. replace (ended s w) with true; auto. symmetry. apply ended_iff, A. now exists o.
    + now rewrite Hx, P.
Qed.

(** stop is enough unless it comes between the worker's look at the flag and its falling asleep:
    if the worker is anywhere else when it is notified, it never sleeps in stop_wait again. *)
Lemma C52_stop_is_enough_lemma : forall es s w s1 es' s2, execution es s -> owner s = Notifying w -> ~ at_phase s w ToSleep -> tstep s ONotify = Some (Ok s1) ->
  trun s1 es' = Some s2 -> at_phase s2 w Running \/ at_phase s2 w AtCheck \/ at_phase s2 w Ended.
Proof.
  intros es s w s1 es' s2 H Ho Nt T R. destruct (notifying_flag es s w H Ho) as (x & Hx & F). pose proof (step_old s _ s1 w x T Hx) as Hx1.
  destruct (awake_run es' s1 s2 w _ R Hx1) as (y & Hy & (_ & N1 & N2)).
  - unfold awake. rewrite wnext_flag. split; [exact F|]. cbn [wnext]. rewrite Ho, Nat.eqb_refl. destruct (ph x) eqn:P; cbn [ph]; rewrite ?P; split; try discriminate. intros _. apply Nt. now exists x.
  - unfold at_phase. rewrite Hy. destruct (ph y) eqn:P; try congruence; eauto.
Qed.
(** A stop of a sleeping worker is always completed, and wakes it, if the worker is not woken
    spuriously meanwhile. *)
Lemma C52_stop_asleep_lemma : forall es s i w, execution es s -> owner s = Idle -> aims s i w -> at_phase s w Asleep ->
  exists s1, tstep s (OStop i) = Some (Ok s1) /\ owner s1 = Notifying w /\
    forall es' s2, trun s1 es' = Some s2 -> ~ In (WSpurious w) es' -> ~ In ONotify es' -> exists s3, tstep s2 ONotify = Some (Ok s3) /\ at_phase s3 w AtCheck /\ owner s3 = Idle.
Proof.
  intros es s i w H Ho (o & Lo & Fo) (x & Hx & P). unfold live_obj in Lo. eexists. split.
  { cbn [tstep]. unfold on_obj. rewrite Ho, Lo, Fo. unfold ended. rewrite Hx, P. reflexivity. }
  split; [reflexivity|]. match goal with |- context [trun ?t _] => set (s1 := t) end. intros es' s2.
  assert (Q : owner s1 = Notifying w /\ at_phase s1 w Asleep) by (split; [reflexivity|exists (mkworker Asleep true); cbn [s1 set_owner set_worker workers]; split; auto; rewrite nth_error_set_nth_eq by (now apply nth_len in Hx); reflexivity]). clearbody s1. clear - Q.
  revert s1 Q. induction es' as [|e es' IH]; intros s1 [Ho (x & Hx & P)] R N1 N2; cbn [trun] in R.
  - injection R as <-. cbn [tstep]. rewrite Ho, Hx, P. eexists. split; [reflexivity|]. split; [|reflexivity]. eexists. cbn [set_owner set_worker workers]. split; [apply nth_error_set_nth_eq; now apply nth_len in Hx|reflexivity].
  - destruct (tstep s1 e) as [[t| | |]|] eqn:T; try discriminate.
    + apply (IH t); auto; [|intros C; apply N1; now right|intros C; apply N2; now right]. destruct (is_owner e) eqn:Eo.
      * exfalso. destruct e; try discriminate Eo; cbn [tstep] in T; unfold on_obj in T; rewrite Ho in T; try discriminate T. apply N2. now left.
      * split; [rewrite <- Ho; destruct e; try discriminate Eo; stepinv T; reflexivity|]. eexists. split; [apply (step_old s1 e t w x T Hx)|].
        destruct e as [| |k|k j|k| |k| |k|k|v|v|v|v|v|v]; try discriminate Eo; cbn [wnext]; destruct (Nat.eqb_spec v w) as [->|]; auto; exfalso; cbn [tstep] in T; unfold on_worker in T; rewrite Hx, P in T; try discriminate T; apply N1; now left.
    + apply (IH s1); auto; [split; [exact Ho|now exists x]|intros C; apply N1; now right|intros C; apply N2; now right].
Qed.

(** A sleeping worker that nobody is about to notify stays asleep until a spurious wake-up or
    another stop; then join and the destructor wait for ever. *)
Lemma C52_asleep_lemma : forall es s w es' s', execution es s -> at_phase s w Asleep -> owner s <> Notifying w ->
  trun s es' = Some s' -> ~ In (WSpurious w) es' -> forallb (fun e => negb (is_stop e)) es' = true -> at_phase s' w Asleep.
Proof. intros es s w es' s' _ P No R N1 N2. exact (asleep_stays es' s s' w R P No N1 N2). Qed.

(** Joining or destroying does not stop: if the thread is in stop_wait and was not stopped, the
    call never returns. *)
Lemma C52_join_hangs_lemma : forall es s i w es' s', execution es s -> owner s = Joining i w \/ owner s = Dying i w -> in_wait s w -> ~ stopped es w ->
  trun s es' = Some s' -> owner s' = owner s /\ in_wait s' w.
Proof.
  intros es s i w es' s' H Ho Hw Ns R.
  destruct (waits_stay es' s s' w i R Ho) as (E & y & Hy & _ & P).
  - assert (X : exists x, nth_error (workers s) w = Some x /\ (ph x = AtCheck \/ ph x = ToSleep \/ ph x = Asleep)) by (destruct Hw as [(x & Hx & P)|[(x & Hx & P)|(x & Hx & P)]]; exists x; auto).
    destruct X as (x & Hx & P). exists x. split; auto. split; auto. pose proof (flag_iff es s H w x Hx) as F. destruct (flag x); auto. destruct Ns. now apply F.
  - split; auto. unfold in_wait, at_phase. rewrite Hy. destruct P as [P|[P|P]]; eauto.
Qed.

Ltac norm T := cbn [tstep] in T; unfold on_obj, set_obj, set_owner, set_worker in T; cbn [owner objs workers nth_error Nat.eqb thr flg set_nth app length tinit] in T;
  repeat (match goal with A : objs ?u = _ |- _ => match type of T with context [objs u] => rewrite A in T end | A : owner ?u = _ |- _ => match type of T with context [owner u] => rewrite A in T end
            | A : length (workers ?u) = _ |- _ => match type of T with context [length (workers u)] => rewrite A in T end end; cbn [owner objs workers nth_error Nat.eqb thr flg set_nth app length tinit] in T).
(** The recorder's use, interleaved with its server in any way: when the destructor is through
    with server_, the server thread has ended, so it does not use the caches destroyed next. *)
Lemma C52_recorder_lemma : forall es s, execution es s -> filter is_owner es = recorder -> at_phase s 0 Ended /\ forall i o, ~ live_obj s i o.
Proof.
  intros es s H F. unfold recorder in F. unfold execution in H.
  assert (N : forall l a r t t', trun t l = Some t' -> filter is_owner l = a :: r -> exists u l2, objs u = objs t /\ owner u = owner t /\ length (workers u) = length (workers t) /\
    match tstep u a with Some (Ok s2) => trun s2 l2 = Some t' | Some Throw => trun u l2 = Some t' | _ => False end /\ filter is_owner l2 = r) by (intros; now apply (owner_next l)).
  destruct (N _ _ _ _ _ H F) as (u1 & l1 & O1 & W1 & L1 & T1 & F1). clear H F. norm T1.
  destruct (N _ _ _ _ _ T1 F1) as (u2 & l2 & O2 & W2 & L2 & T2 & F2). clear T1 F1. norm T2.
  destruct (N _ _ _ _ _ T2 F2) as (u3 & l3 & O3 & W3 & L3 & T3 & F3). clear T2 F2. norm T3.
  destruct (N _ _ _ _ _ T3 F3) as (u4 & l4 & O4 & W4 & L4 & T4 & F4). clear T3 F3. norm T4.
  destruct (N _ _ _ _ _ T4 F4) as (u5 & l5 & O5 & W5 & L5 & T5 & F5). clear T4 F4. norm T5.
  destruct (ended u5 0) eqn:E5; [destruct T5|]. destruct (workers u5) as [|x5 ws5] eqn:X5; [destruct T5|].
  destruct (N _ _ _ _ _ T5 F5) as (u6 & l6 & O6 & W6 & L6 & T6 & F6). clear T5 F5. norm T6.
  destruct (workers u6) as [|x6 ws6] eqn:X6; [destruct T6|].
  assert (T6' : exists t6, trun t6 l6 = Some s /\ objs t6 = objs u6 /\ owner t6 = Idle) by (destruct (ph x6); try contradiction; eexists; (split; [exact T6|split; [try reflexivity; cbn [objs]; rewrite O6; cbn [objs]; rewrite ?O5; reflexivity|reflexivity]])).
  clear T6. destruct T6' as (t6 & T6 & O6' & W6').
  destruct (N _ _ _ _ _ T6 F6) as (u7 & l7 & O7 & W7 & L7 & T7 & F7). clear T6 F6. norm T7.
  destruct (N _ _ _ _ _ T7 F7) as (u8 & l8 & O8 & W8 & L8 & T8 & F8). clear T7 F7. norm T8. destruct (ended u8 0) eqn:E8; [|destruct T8].
  assert (Es : exists t8, trun t8 l8 = Some s /\ objs t8 = [None; None] /\ workers t8 = workers u8) by (eexists; split; [exact T8|split; reflexivity]).
  clear T8. destruct Es as (t8 & Es & Ot & Wt).
  destruct (workers_run l8 _ _ Es) as (Ob & _ & _).
  { clear - F8. induction l8 as [|e l IH]; auto. cbn [filter forallb] in *. destruct (is_owner e); [discriminate|]. auto. }
  apply ended_iff in E8. destruct E8 as (x & Hx & P). rewrite <- Wt in Hx. split.
  - clear - Hx P Es. assert (G : forall l t, at_phase t 0 Ended -> trun t l = Some s -> at_phase s 0 Ended).
    { clear. induction l as [|e l IH]; intros t Hp H; cbn [trun] in H; [injection H as <-; auto|]. destruct (tstep t e) as [[t1| | |]|] eqn:T; try discriminate; [|eauto].
      apply (IH t1); auto. destruct Hp as (x & Hx & P). eexists. split; [apply (step_old t e t1 0 x T Hx)|]. now apply (ended_stays t e t1). }
    apply (G l8 t8); [exists x; auto|exact Es].
  - intros i o. unfold live_obj. rewrite Ob, Ot. destruct i as [|[|[|i]]]; discriminate.
Qed.

(** The recorder's use with a server that calls stop_wait and then returns: an execution that goes
    well. *)
Lemma C52_nonvacuous_lemma : exists es s, execution es s /\ filter is_owner es = recorder /\ stopped es 0 /\ In (WSleep 0) es.
Proof.
  exists [ONew; OSpawn; WWait 0; OAssign 0 1; WCheck 0; WSleep 0; ODestroy 1; WSpurious 0; WCheck 0; WSleep 0; OStop 0; ONotify; ODestroy 0; WCheck 0; WReturn 0; OJoined].
  eexists. split; [reflexivity|]. split; [reflexivity|]. split; [|cbn; tauto].
  exists [ONew; OSpawn; WWait 0; OAssign 0 1; WCheck 0; WSleep 0; ODestroy 1; WSpurious 0; WCheck 0; WSleep 0], 0. do 2 eexists. split; [reflexivity|]. split; [reflexivity|]. eexists. split; reflexivity.
Qed.

(** Refuted: stop can be lost. The recorder's destructor stops the server between its look at
    the flag and its falling asleep; unless a spurious wake-up helps, the destructor never
    returns. *)
Lemma C52_lost_wakeup_refuted_lemma : exists es s, execution es s /\ stopped es 0 /\ filter is_owner es ++ [OJoined] = recorder /\
  forall es' s', trun s es' = Some s' -> ~ In (WSpurious 0) es' -> owner s' = Dying 0 0 /\ at_phase s' 0 Asleep.
Proof.
  exists [ONew; OSpawn; OAssign 0 1; ODestroy 1; WWait 0; WCheck 0; OStop 0; ONotify; WSleep 0; ODestroy 0].
  eexists. split; [reflexivity|]. split; [|split; [reflexivity|]].
  - exists [ONew; OSpawn; OAssign 0 1; ODestroy 1; WWait 0; WCheck 0], 0. do 2 eexists. split; [reflexivity|]. split; [reflexivity|]. eexists. split; reflexivity.
  - match goal with |- context [trun ?t _] => set (s := t) end.
    assert (Q : owner s = Dying 0 0 /\ at_phase s 0 Asleep) by (split; [reflexivity|eexists; split; reflexivity]). clearbody s. intros es'. revert s Q.
    induction es' as [|e es' IH]; intros s [Ho (x & Hx & P)] s' R N; cbn [trun] in R; [injection R as <-; split; auto; now exists x|].
    assert (N' : ~ In (WSpurious 0) es') by (intros C; apply N; now right).
    destruct (tstep s e) as [[t| | |]|] eqn:T; try discriminate; [|apply (IH s); auto; split; auto; now exists x].
    apply (IH t); auto. destruct (is_owner e) eqn:Eo.
    + exfalso. destruct e; try discriminate Eo; cbn [tstep] in T; unfold on_obj in T; rewrite Ho in T; try discriminate T. unfold ended in T. rewrite Hx, P in T. discriminate.
    + split; [rewrite <- Ho; destruct e; try discriminate Eo; stepinv T; reflexivity|]. eexists. split; [apply (step_old s e t 0 x T Hx)|].
      destruct e as [| |k|k j|k| |k| |k|k|v|v|v|v|v|v]; try discriminate Eo; cbn [wnext]; destruct (Nat.eqb_spec v 0) as [->|]; auto; exfalso; cbn [tstep] in T; unfold on_worker in T; rewrite Hx, P in T; try discriminate T; apply N; now left.
Qed.
(** Refuted: stop can use a destroyed flag. The server looks at the flag after the store and
    before the notification, returns, and its thread ends. *)
Lemma C52_notify_ended_refuted_lemma : exists es s, execution es s /\ filter is_owner es = firstn 5 recorder /\ tstep s ONotify = Some UB /\
  ~ In (WThrow 0) es /\ In (WWait 0) es.
Proof.
  exists [ONew; OSpawn; OAssign 0 1; ODestroy 1; WWait 0; OStop 0; WCheck 0; WReturn 0]. eexists.
  split; [reflexivity|]. split; [reflexivity|]. split; [reflexivity|]. split; cbn; [|tauto]. intros C. repeat (destruct C as [C|C]; [discriminate|]). exact C.
Qed.
(** Refuted: stop of a default constructed object and of an object whose thread has returned are
    undefined, and assigning to an object with a running thread ends the program. *)
Lemma C52_misuse_refuted_lemma :
  (exists es s, execution es s /\ es = [ONew] /\ tstep s (OStop 0) = Some UB) /\
  (exists es s, execution es s /\ es = [OSpawn; WReturn 0] /\ holds s 0 0 /\ tstep s (OStop 0) = Some UB) /\
  (exists es s, execution es s /\ es = [OSpawn; OSpawn] /\ tstep s (OAssign 0 1) = Some Abort).
Proof.
  split; [|split]; do 2 eexists; (split; [|split; [reflexivity|]]); try reflexivity. split; [eexists; split; reflexivity|reflexivity].
Qed.
(** hypotheses of the laws about stop: a worker asleep, one about to be notified, one joined while
    waiting *)
Lemma C52_states_nonvacuous_lemma :
  (exists es s, execution es s /\ owner s = Idle /\ aims s 0 0 /\ at_phase s 0 Asleep) /\
  (exists es s s1, execution es s /\ owner s = Notifying 0 /\ ~ at_phase s 0 ToSleep /\ tstep s ONotify = Some (Ok s1)) /\
  (exists es s, execution es s /\ owner s = Joining 0 0 /\ in_wait s 0 /\ ~ stopped es 0).
Proof.
  split; [|split].
  - exists [OSpawn; WWait 0; WCheck 0; WSleep 0]. eexists. split; [reflexivity|]. split; [reflexivity|]. split; eexists; split; reflexivity.
  - exists [OSpawn; WWait 0; WCheck 0; WSleep 0; OStop 0]. do 2 eexists. split; [reflexivity|]. split; [reflexivity|]. split; [|reflexivity]. intros (x & Hx & P). injection Hx as <-. discriminate.
  - exists [OSpawn; WWait 0; OJoin 0]. eexists. split; [reflexivity|]. split; [reflexivity|]. split; [left; eexists; split; reflexivity|].
    intros C. assert (H : execution [OSpawn; WWait 0; OJoin 0] (mkts [Some (mkobj (Some 0) (Some 0))] [mkworker AtCheck false] (Joining 0 0))) by reflexivity.
    apply (flag_iff _ _ H 0 (mkworker AtCheck false) eq_refl) in C. discriminate.
Qed.
