(** Proofs about stoppable threads. *)
From Coq Require Import Lia.
From Verif Require Import Common ThreadModel ThreadSpec.

Lemma trun_app s es es' : trun s (es ++ es') = match trun s es with Some s1 => trun s1 es' | None => None end.
Proof.
  revert s. induction es as [|e es IH]; intros s; cbn [app trun]; auto. destruct (tstep s e) as [[| | |]|]; auto.
Qed.
Lemma snoc_cases {A} (l : list A) : l = [] \/ exists x l', l = l' ++ [x].
Proof. induction l as [|x l _] using rev_ind; [now left|right; eauto]. Qed.
(** executions from the right *)
Lemma execution_snoc es e s : execution (es ++ [e]) s -> exists s1, execution es s1 /\ (tstep s1 e = Some (Ok s) \/ tstep s1 e = Some Throw /\ s = s1).
Proof.
  unfold execution. rewrite trun_app. destruct (trun tinit es) as [s1|]; [|discriminate]. cbn [trun]. intros H. exists s1. split; auto.
  destruct (tstep s1 e) as [[| | |]|]; try discriminate; injection H as <-; auto.
Qed.
Lemma execution_ind (P : list tevent -> tstate -> Prop) :
  P [] tinit -> (forall es e s s', execution es s -> P es s -> execution (es ++ [e]) s' -> tstep s e = Some (Ok s') -> P (es ++ [e]) s') ->
  (forall es e s, execution es s -> P es s -> tstep s e = Some Throw -> P (es ++ [e]) s) -> forall es s, execution es s -> P es s.
Proof.
  intros H0 H1 H2 es. induction es as [|e es IH] using rev_ind; intros s H.
  - injection H as <-. exact H0.
  - destruct (execution_snoc es e s H) as (s1 & E & [T|[T ->]]); eauto.
Qed.

Ltac cases_in H := match type of H with context [match ?x with _ => _ end] => destruct x eqn:?; try discriminate H end.
Ltac stepinv H := cbn [tstep] in H; unfold on_obj, on_worker in H; repeat cases_in H; try discriminate H; injection H as <-.
Lemma nth_app {A} (l : list A) x i y : nth_error (l ++ [x]) i = Some y -> nth_error l i = Some y \/ i = length l /\ y = x.
Proof.
  intros H. destruct (Nat.lt_ge_cases i (length l)) as [L|L]; [rewrite nth_error_app1 in H by exact L; auto|]. rewrite nth_error_app2 in H by exact L.
  destruct (i - length l) as [|k] eqn:E; [|destruct k; discriminate]. injection H as <-. right. split; [lia|auto].
Qed.
Lemma nth_len {A} (l : list A) i x : nth_error l i = Some x -> i < length l.
Proof. intros H. apply nth_error_Some. congruence. Qed.

(** what a step does to worker [w] *)
Definition aimsb s i w : bool := match nth_error (objs s) i with Some (Some o) => match flg o with Some v => v =? w | None => false end | _ => false end.
Lemma aimsb_iff s i w : aimsb s i w = true <-> aims s i w.
Proof.
  unfold aimsb, aims, live_obj. split.
  - destruct (nth_error (objs s) i) as [[o|]|] eqn:E; try discriminate. destruct (flg o) as [v|] eqn:F; [|discriminate]. intros H. apply Nat.eqb_eq in H as ->. now exists o.
  - intros (o & -> & ->). apply Nat.eqb_refl.
Qed.
Definition wnext s e w x : worker :=
  match e with
  | OStop i => if aimsb s i w then mkworker (ph x) true else x
  | ONotify => match owner s with Notifying v => if v =? w then match ph x with Asleep => mkworker AtCheck (flag x) | _ => x end else x | _ => x end
  | WThrow v => if v =? w then mkworker (if flag x then Ended else Running) (flag x) else x
  | WWait v => if v =? w then mkworker AtCheck (flag x) else x
  | WCheck v => if v =? w then mkworker (if flag x then Running else ToSleep) (flag x) else x
  | WSleep v => if v =? w then mkworker Asleep (flag x) else x
  | WSpurious v => if v =? w then mkworker AtCheck (flag x) else x
  | WReturn v => if v =? w then mkworker Ended (flag x) else x
  | _ => x
  end.
Lemma step_old s e s' t x : tstep s e = Some (Ok s') -> nth_error (workers s) t = Some x -> nth_error (workers s') t = Some (wnext s e t x).
Proof.
  intros H Hx. pose proof (nth_len _ _ _ Hx) as L.
  assert (W : forall v y, nth_error (set_nth v y (workers s)) t = Some (if v =? t then y else x)).
  { intros v y. rewrite nth_error_set_nth. destruct (Nat.eqb_spec v t) as [->|]; cbn [andb]; [|exact Hx]. now rewrite (proj2 (Nat.ltb_lt _ _) L). }
  assert (Wx : forall v y k, nth_error (workers s) v = Some y -> (if v =? t then k y else x) = (if v =? t then k x else x)).
  { intros v y k Hv. destruct (Nat.eqb_spec v t) as [->|]; auto. congruence. }
  destruct e as [| |i|i j|i| |i| |i|i|v|v|v|v|v|v]; stepinv H; cbn [workers set_obj set_owner set_worker wnext]; auto; try (rewrite nth_error_app1 by exact L; exact Hx); rewrite ?W; unfold aimsb;
    repeat match goal with A : _ = _ |- _ => rewrite A end; f_equal;
    try (match goal with A : nth_error (workers s) ?v = Some ?y |- _ => destruct (Nat.eqb_spec v t) as [Ev|Ev]; [assert (y = x) as -> by congruence|]; repeat match goal with B : ph x = _ |- _ => rewrite B end; reflexivity end).
  all: match goal with |- (if ?v =? _ then _ else _) = _ => destruct (Nat.eqb_spec v t) as [Ev|Ev]; [|reflexivity] end; match goal with B : flag ?y = _ |- _ => assert (y = x) as E by congruence; rewrite E in B; rewrite B end; reflexivity.
Qed.
Lemma step_new s e s' t x : tstep s e = Some (Ok s') -> nth_error (workers s) t = None -> nth_error (workers s') t = Some x ->
  e = OSpawn /\ t = length (workers s) /\ x = mkworker Running false.
Proof.
  intros H Hn Hx. apply nth_error_None in Hn.
  destruct e as [| |i|i j|i| |i| |i|i|v|v|v|v|v|v]; stepinv H; cbn [workers set_obj set_owner set_worker] in Hx;
    try (apply nth_len in Hx; rewrite ?length_set_nth in Hx; lia).
  apply nth_app in Hx as [Hx|[-> ->]]; [apply nth_len in Hx; lia|auto].
Qed.
Lemma step_length s e s' : tstep s e = Some (Ok s') -> length (workers s) <= length (workers s').
Proof.
  intros H. destruct (Nat.eq_dec (length (workers s)) 0) as [E|E]; [lia|]. destruct (nth_error (workers s) (length (workers s) - 1)) as [x|] eqn:Hx; [|apply nth_error_None in Hx; lia].
  pose proof (step_old s e s' _ x H Hx) as Hy. apply nth_len in Hy. lia.
Qed.

(** invariant of the objects *)
Record Inv (s : tstate) : Prop := mkInv {
  i_bound : forall i w, aims s i w -> w < length (workers s);
  i_aims : forall i w, holds s i w -> aims s i w;
  i_one : forall i j w, holds s i w -> holds s j w -> i = j;
  i_owner : match owner s with Idle => True | Notifying w => w < length (workers s) | Joining i w | Dying i w => holds s i w end }.

(** what a step does to the objects: kept, a new one, or one changed *)
Definition keeps_obj (s s' : tstate) : Prop := forall i o, live_obj s' i o -> exists o', live_obj s i o' /\ flg o' = flg o /\ (thr o = None \/ thr o = thr o').
Lemma keeps_Inv s s' : Inv s -> keeps_obj s s' -> length (workers s) <= length (workers s') ->
  match owner s' with Idle => True | Notifying w => w < length (workers s') | Joining i w | Dying i w => holds s' i w end -> Inv s'.
Proof.
  intros [B A O _] K L Ow. assert (KH : forall i w, holds s' i w -> holds s i w).
  { intros i w (o & Ho & Hw). destruct (K i o Ho) as (o' & Ho' & _ & [C|C]); [congruence|]. exists o'. split; congruence. }
  assert (KA : forall i w, aims s' i w -> aims s i w) by (intros i w (o & Ho & Hw); destruct (K i o Ho) as (o' & Ho' & Hf & _); exists o'; split; congruence).
  constructor; eauto.
  - intros i w H. specialize (B i w (KA i w H)). lia.
  - intros i w H. destruct H as (o & Ho & Hw). destruct (K i o Ho) as (o' & Ho' & Hf & [C|C]); [congruence|].
    destruct (A i w) as (o2 & Ho2 & Hf2); [exists o'; split; congruence|]. exists o. split; auto. unfold live_obj in *. congruence.
Qed.
Lemma keeps_same s s' : objs s' = objs s -> keeps_obj s s'.
Proof. intros E i o H. exists o. unfold live_obj in *. rewrite <- E. auto. Qed.
Lemma keeps_set s s' i n : objs s' = set_nth i n (objs s) -> (forall o, n = Some o -> exists o', live_obj s i o' /\ flg o' = flg o /\ (thr o = None \/ thr o = thr o')) -> keeps_obj s s'.
Proof.
  intros E Hn j o H. unfold live_obj in *. rewrite E, nth_error_set_nth in H. destruct (Nat.eqb_spec i j) as [->|]; cbn [andb] in H; [|now exists o; auto].
  destruct (j <? length (objs s)); [|now exists o; auto]. injection H as ->. now apply Hn.
Qed.

Lemma worker_Inv s e s' : Inv s -> is_owner e = false -> tstep s e = Some (Ok s') -> Inv s'.
Proof.
  intros I Ho H. pose proof (step_length s e s' H) as L. apply (keeps_Inv s); auto.
  - apply keeps_same. destruct e; try discriminate Ho; stepinv H; reflexivity.
  - assert (Eo : owner s' = owner s) by (destruct e; try discriminate Ho; stepinv H; reflexivity).
    assert (Eb : objs s' = objs s) by (destruct e; try discriminate Ho; stepinv H; reflexivity).
    pose proof (i_owner s I) as Ow. rewrite Eo. unfold holds, live_obj in *. rewrite Eb. destruct (owner s); auto. lia.
Qed.
Lemma step_Inv s e s' : Inv s -> tstep s e = Some (Ok s') -> Inv s'.
Proof.
  intros I H. pose proof (step_length s e s' H) as L.
  assert (KL : objs s' = objs s -> match owner s' with Idle => True | Notifying w => w < length (workers s') | Joining i w | Dying i w => holds s' i w end -> Inv s') by (intros E Ho; apply (keeps_Inv s); auto; now apply keeps_same).
  destruct (is_owner e) eqn:Eo; [|now apply (worker_Inv s e s')].
  destruct e as [| |i|i j|i| |i| |i|i|v|v|v|v|v|v]; try discriminate Eo.
  - stepinv H. destruct I as [B A O _]. cbn [objs workers] in *.
    assert (K : forall i o, live_obj (mkts (objs s ++ [Some (mkobj None None)]) (workers s) Idle) i o -> live_obj s i o \/ thr o = None /\ flg o = None).
    { intros i o H. apply nth_app in H as [H|[_ H]]; [now left|right]. injection H as ->. auto. }
    assert (KH : forall i w, holds (mkts (objs s ++ [Some (mkobj None None)]) (workers s) Idle) i w -> holds s i w).
    { intros i w (o & Ho & Hw). destruct (K i o Ho) as [Ho'|[C _]]; [now exists o|congruence]. }
    constructor; cbn [owner workers]; auto.
    + intros i w (o & Ho & Hw). destruct (K i o Ho) as [Ho'|[_ C]]; [|congruence]. apply (B i w). now exists o.
    + intros i w H. destruct (A i w (KH i w H)) as (o & Ho & Hf). exists o. split; auto. unfold live_obj in *. cbn [objs]. rewrite nth_error_app1; auto. now apply nth_len in Ho.
    + intros i j w H1 H2. eapply O; eauto.
  - stepinv H. destruct I as [B A O _]. cbn [objs workers] in *. set (n := length (workers s)) in *. set (s1 := mkts _ _ _).
    assert (K : forall i o, live_obj s1 i o -> live_obj s i o \/ i = length (objs s) /\ o = mkobj (Some n) (Some n)).
    { intros i o H. apply nth_app in H as [H|[-> H]]; [now left|right]. injection H as ->. auto. }
    assert (B' : forall i w, aims s i w -> w < n) by exact B.
    assert (Hb : forall i w, holds s i w -> w < n) by (intros i w H; apply (B i w), A, H).
    assert (KH : forall i w, holds s1 i w -> holds s i w \/ i = length (objs s) /\ w = n).
    { intros i w (o & Ho & Hw). destruct (K i o Ho) as [Ho'|[-> ->]]; [left; now exists o|right]. injection Hw as <-. auto. }
    constructor; cbn [owner workers]; auto.
    + intros i w (o & Ho & Hw). replace (length (workers s1)) with (n + 1) by (unfold s1; cbn [workers]; rewrite app_length; reflexivity). destruct (K i o Ho) as [Ho'|[-> ->]]; [assert (w < n) by (apply (B' i w); now exists o); lia|]. injection Hw as <-. lia.
    + intros i w H. destruct H as (o & Ho & Hw). destruct (K i o Ho) as [Ho'|[-> ->]].
      * destruct (A i w) as (o2 & Ho2 & Hf); [now exists o|]. exists o. split; auto. unfold live_obj in *. congruence.
      * injection Hw as <-. eexists. split; [exact Ho|reflexivity].
    + intros i j w H1 H2. destruct (KH i w H1) as [H1'|[-> E1]], (KH j w H2) as [H2'|[-> E2]]; auto; [eapply O; eauto| |]; [specialize (Hb i w H1')|specialize (Hb j w H2')]; lia.
    + exact Logic.I.
  - cbn [tstep] in H. unfold on_obj in H. repeat cases_in H. injection H as <-. subst. match goal with A : nth_error (objs s) i = Some (Some ?y) |- _ => rename y into o, A into Heqo0 end. destruct I as [B A O _]. set (s1 := set_obj _ _ _).
    assert (Li : i < length (objs s)) by (now apply nth_len in Heqo0).
    assert (K : forall j o', live_obj s1 j o' -> (j = i /\ o' = mkobj None (flg o)) \/ (j = length (objs s) /\ o' = o) \/ (j <> i /\ j < length (objs s) /\ live_obj s j o')).
    { intros j o' H. unfold live_obj, s1 in H. cbn [objs set_obj] in H. rewrite nth_error_set_nth in H. destruct (Nat.eqb_spec i j) as [->|Hne]; cbn [andb] in H.
      - rewrite app_length in H. replace (j <? length (objs s) + length [Some o]) with true in H by (symmetry; apply Nat.ltb_lt; cbn; lia). injection H as <-. auto.
      - apply nth_app in H as [H|[-> H]]; [right; right; split; auto; split; [now apply nth_len in H|exact H]|right; left; split; congruence]. }
    assert (Hi : live_obj s i o) by exact Heqo0.
    constructor; cbn [owner]; auto.
    + intros j w (o' & Ho & Hw). cbn [workers set_obj s1]. destruct (K j o' Ho) as [[-> ->]|[[-> ->]|(_ & _ & Ho')]]; [apply (B i w); now exists o|apply (B i w); now exists o|apply (B j w); now exists o'].
    + intros j w (o' & Ho & Hw). exists o'. split; auto. destruct (K j o' Ho) as [[-> ->]|[[-> ->]|(_ & _ & Ho')]]; [discriminate| |].
      * destruct (A i w) as (o2 & Ho2 & Hf); [now exists o|]. unfold live_obj in *. congruence.
      * destruct (A j w) as (o2 & Ho2 & Hf); [now exists o'|]. unfold live_obj in *. congruence.
    + intros j k w (o1 & H1 & W1) (o2 & H2 & W2).
      destruct (K j o1 H1) as [[-> ->]|[[-> ->]|(N1 & _ & H1')]]; [discriminate| |]; (destruct (K k o2 H2) as [[-> ->]|[[-> ->]|(N2 & _ & H2')]]; [discriminate| |]); auto.
      * exfalso. apply N2. symmetry. eapply (O i k w); [now exists o|now exists o2].
      * exfalso. apply N1. eapply (O j i w); [now exists o1|now exists o].
      * eapply (O j k w); [now exists o1|now exists o2].
    + exact Logic.I.
  - cbn [tstep] in H. unfold on_obj in H. repeat cases_in H; injection H as <-; auto.
    apply Nat.eqb_neq in Heqb0. destruct I as [B A O _]. match goal with |- Inv ?x => set (s1 := x) end. clear KL L.
    assert (Lj : j < length (objs s)) by (now apply nth_len in Heqo1). assert (Li : i < length (objs s)) by (now apply nth_len in Heqo).
    assert (K : forall k o', live_obj s1 k o' -> (k = i /\ o' = o2) \/ (k = j /\ o' = mkobj None (flg o2)) \/ (k <> i /\ k <> j /\ live_obj s k o')).
    { intros k o' H. unfold live_obj, s1 in H. cbn [objs set_obj] in H. rewrite !nth_error_set_nth, length_set_nth in H.
      destruct (Nat.eqb_spec j k) as [->|N1]; cbn [andb] in H; [rewrite (proj2 (Nat.ltb_lt _ _) Lj) in H; injection H as <-; auto|].
      destruct (Nat.eqb_spec i k) as [->|N2]; cbn [andb] in H; [rewrite (proj2 (Nat.ltb_lt _ _) Li) in H; injection H as <-; auto|]. auto 6. }
    assert (Hj : live_obj s j o2) by exact Heqo1.
    constructor; auto.
    + intros k w (o' & Ho & Hw). cbn [workers set_obj s1]. destruct (K k o' Ho) as [[-> ->]|[[-> ->]|(_ & _ & Ho')]]; [apply (B j w); now exists o2|apply (B j w); now exists o2|apply (B k w); now exists o'].
    + intros k w (o' & Ho & Hw). exists o'. split; auto. destruct (K k o' Ho) as [[-> ->]|[[-> ->]|(_ & _ & Ho')]]; [|discriminate|].
      * destruct (A j w) as (x & Hx & Hf); [now exists o2|]. unfold live_obj in *. congruence.
      * destruct (A k w) as (x & Hx & Hf); [now exists o'|]. unfold live_obj in *. congruence.
    + intros k l w (x & H1 & W1) (y & H2 & W2).
      destruct (K k x H1) as [[-> ->]|[[-> ->]|(N1 & M1 & H1')]]; [|discriminate|]; (destruct (K l y H2) as [[-> ->]|[[-> ->]|(N2 & M2 & H2')]]; [|discriminate|]); auto.
      * exfalso. apply M2. symmetry. eapply (O j l w); [now exists o2|now exists y].
      * exfalso. apply M1. eapply (O k j w); [now exists x|now exists o2].
      * eapply (O k l w); [now exists x|now exists y].
    + unfold s1. cbn [owner set_obj]. rewrite Heqb. exact Logic.I.
  - stepinv H. apply KL; [reflexivity|]. cbn [owner set_owner set_worker workers]. rewrite length_set_nth. match goal with A : nth_error (workers s) _ = Some _ |- _ => now apply nth_len in A end.
  - stepinv H; apply KL; try reflexivity; exact Logic.I.
  - stepinv H. apply KL; [reflexivity|]. cbn [owner set_owner]. eexists. split; [|eassumption]. subst. eassumption.
  - cbn [tstep] in H. destruct (owner s) as [| |k w|k w] eqn:Ob; try discriminate H.
    + repeat cases_in H. injection H as <-. subst. apply (keeps_Inv s); auto; [|exact Logic.I]. eapply keeps_set; [reflexivity|]. intros o' Ho'. injection Ho' as <-. eexists. split; [eassumption|auto].
    + repeat cases_in H. injection H as <-. apply (keeps_Inv s); auto; [|exact Logic.I]. eapply keeps_set; [reflexivity|]. discriminate.
  - stepinv H. subst. apply (keeps_Inv s); auto; [|cbn [owner set_obj]; match goal with A : owner s = Idle |- _ => rewrite A; exact Logic.I end]. eapply keeps_set; [reflexivity|]. intros o' Ho'. injection Ho' as <-. eexists. split; [eassumption|auto].
  - stepinv H; subst.
    + apply KL; [reflexivity|]. cbn [owner set_owner]. eexists. split; [|eassumption]. eassumption.
    + apply (keeps_Inv s); auto; [|cbn [owner set_obj]; match goal with A : owner s = Idle |- _ => rewrite A; exact Logic.I end]. eapply keeps_set; [reflexivity|]. discriminate.
Qed.
Lemma run_Inv es s : execution es s -> Inv s.
Proof.
  apply (execution_ind (fun _ s => Inv s)); eauto using step_Inv.
  assert (A : forall i w, ~ aims tinit i w) by (intros [|i] w (o & Ho & _); discriminate). assert (B : forall i w, ~ holds tinit i w) by (intros [|i] w (o & Ho & _); discriminate).
  constructor; cbn [owner tinit]; auto.
  - intros i w H. destruct (A i w H).
  - intros i w H. destruct (B i w H).
  - intros i j w H. destruct (B i w H).
Qed.

(** ---- flags ---- *)
Lemma stopped_app es es' w : stopped es w -> stopped (es ++ es') w.
Proof. intros (e1 & i & e2 & s & -> & E & A). exists e1, i, (e2 ++ es'), s. rewrite <- app_assoc. auto. Qed.
Lemma stopped_snoc es e w : stopped (es ++ [e]) w -> stopped es w \/ exists i s, e = OStop i /\ execution es s /\ aims s i w.
Proof.
  intros (e1 & i & e2 & s & E & X & A). destruct (snoc_cases e2) as [->|(e' & l & ->)].
  - apply app_inj_tail in E as [-> ->]. right. exists i, s. auto.
  - rewrite app_comm_cons, app_assoc in E. apply app_inj_tail in E as [-> ->]. left. exists e1, i, l, s. auto.
Qed.
Lemma exec_fun es s s' : execution es s -> execution es s' -> s = s'.
Proof. unfold execution. congruence. Qed.
Lemma wnext_flag s e w x : flag (wnext s e w x) = match e with OStop i => if aimsb s i w then true else flag x | _ => flag x end.
Proof.
  destruct e as [| |i|i j|i| |i| |i|i|v|v|v|v|v|v]; cbn [wnext]; auto; try (destruct (v =? w); reflexivity).
  - destruct (aimsb s i w); reflexivity.
  - destruct (owner s); auto. destruct (_ =? w); auto. destruct (ph x); reflexivity.
Qed.
Lemma flag_iff es s : execution es s -> forall w x, nth_error (workers s) w = Some x -> (flag x = true <-> stopped es w).
Proof.
  intros H. revert es s H. apply (execution_ind (fun es s => forall w x, nth_error (workers s) w = Some x -> (flag x = true <-> stopped es w))).
  - intros w x H. destruct w; discriminate.
  - intros es e s s' X IH X' T w x Hx. destruct (nth_error (workers s) w) as [y|] eqn:Hy.
    + rewrite (step_old s e s' w y T Hy) in Hx. injection Hx as <-. rewrite wnext_flag. specialize (IH w y Hy).
      assert (G : stopped (es ++ [e]) w <-> stopped es w \/ exists i, e = OStop i /\ aims s i w).
      { split.
        - intros C. apply stopped_snoc in C as [C|(i & s2 & -> & X2 & A)]; [now left|right]. rewrite (exec_fun _ _ _ X X2) in *. now exists i.
        - intros [C|(i & -> & A)]; [now apply stopped_app|]. exists es, i, [], s. auto. }
      rewrite G, <- IH. destruct e as [| |i|i j|i| |i| |i|i|v|v|v|v|v|v]; try (split; [auto|intros [C|(? & C & _)]; [auto|discriminate]]).
      destruct (aimsb s i w) eqn:A.
      * apply aimsb_iff in A. split; auto. intros _. right. now exists i.
      * split; auto. intros [C|(k & C & A')]; auto. injection C as <-. apply aimsb_iff in A'. congruence.
    + destruct (step_new s e s' w x T Hy Hx) as (-> & -> & ->). cbn [flag]. split; [discriminate|]. intros C. exfalso.
      destruct C as (e1 & i & e2 & s2 & E & X2 & A).
      assert (L : length (workers s2) <= length (workers s)).
      { destruct (snoc_cases e2) as [->|(e' & l & ->)]; [apply app_inj_tail in E as [_ C]; discriminate C|].
        rewrite app_comm_cons, app_assoc in E. apply app_inj_tail in E as [-> _]. clear - X X2. unfold execution in *. rewrite trun_app, X2 in X. revert s2 X2 X. generalize (OStop i :: l). clear.
        intros l s2 _. revert s2. induction l as [|e l IH]; intros s2 H; cbn [trun] in H; [injection H as <-; lia|]. destruct (tstep s2 e) as [[s3| | |]|] eqn:T; try discriminate; auto. pose proof (step_length _ _ _ T). specialize (IH _ H). lia. }
      pose proof (i_bound s2 (run_Inv _ _ X2) i _ A). lia.
  - intros es e s X IH T w x Hx. rewrite (IH w x Hx). split; [apply stopped_app|]. intros C. apply stopped_snoc in C as [C|(i & s2 & -> & X2 & A)]; auto. exfalso.
    cbn [tstep] in T. unfold on_obj in T. repeat cases_in T; discriminate.
Qed.

(** ---- phases ---- *)
Lemma ended_stays s e s' w x : tstep s e = Some (Ok s') -> nth_error (workers s) w = Some x -> ph x = Ended -> ph (wnext s e w x) = Ended.
Proof.
  intros T Hx Hp. destruct e as [| |i|i j|i| |i| |i|i|v|v|v|v|v|v]; cbn [wnext]; auto;
    try (destruct (Nat.eqb_spec v w) as [->|]; auto; cbn [tstep] in T; unfold on_worker in T; rewrite Hx, Hp in T; discriminate).
  - destruct (aimsb s i w); auto.
  - destruct (owner s); auto. destruct (_ =? w); auto. now rewrite Hp.
Qed.
Lemma ended_iff s w : ended s w = true <-> at_phase s w Ended.
Proof.
  unfold ended, at_phase. split.
  - destruct (nth_error (workers s) w) as [x|]; [|discriminate]. destruct (ph x) eqn:E; try discriminate. intros _. now exists x.
  - intros (x & -> & ->). reflexivity.
Qed.

Lemma set_live s i n j o : live_obj (set_obj s i n) j o <-> (i = j /\ i < length (objs s) /\ n = Some o) \/ (~ (i = j /\ i < length (objs s)) /\ live_obj s j o).
Proof.
  unfold live_obj. cbn [set_obj objs]. rewrite nth_error_set_nth. destruct (Nat.eqb_spec i j) as [->|Hne]; cbn [andb]; [|tauto].
  destruct (Nat.ltb_spec j (length (objs s))) as [Lj|Lj]; [|split; [intros H; right; split; [lia|exact H]|intros [(_ & C & _)|[_ H]]; [lia|exact H]]].
  split; [intros C; injection C as ->; auto|]. intros [(_ & _ & ->)|[C _]]; [reflexivity|destruct C; auto].
Qed.

(** a thread is not lost *)
Lemma step_holds s e s' i w : Inv s -> tstep s e = Some (Ok s') -> holds s i w -> (exists j, holds s' j w) \/ e = ODetach i \/ at_phase s' w Ended.
Proof.
  intros I H Hh. destruct Hh as (o & Ho & Hw). pose proof (nth_len _ _ _ Ho) as Li.
  assert (K : objs s' = objs s -> exists j, holds s' j w) by (intros E; exists i, o; unfold live_obj; now rewrite E).
  assert (Ka : forall n, objs s' = objs s ++ n -> exists j, holds s' j w) by (intros n E; exists i, o; unfold live_obj; rewrite E, nth_error_app1; auto).
  destruct e as [| |k|k j|k| |k| |k|k|v|v|v|v|v|v]; try (left; stepinv H; apply K; reflexivity).
  - left. stepinv H. eapply Ka. reflexivity.
  - left. stepinv H. eapply Ka. reflexivity.
  - left. stepinv H. subst. match goal with A : nth_error (objs s) k = Some (Some ?y) |- _ => rename y into q, A into Hq end.
    destruct (Nat.eq_dec k i) as [->|Hne].
    + assert (q = o) as -> by (unfold live_obj in Ho; congruence). exists (length (objs s)), o. split; auto. unfold live_obj. cbn [set_obj objs]. rewrite nth_error_set_nth_neq by lia. rewrite nth_error_app2 by lia. now rewrite Nat.sub_diag.
    + exists i, o. split; auto. unfold live_obj. cbn [set_obj objs]. rewrite nth_error_set_nth_neq by lia. rewrite nth_error_app1; auto.
  - left. cbn [tstep] in H. unfold on_obj in H. repeat cases_in H; injection H as <-; [apply K; reflexivity|]. subst.
    match goal with A : (k =? j) = false |- _ => apply Nat.eqb_neq in A; rename A into Hkj end.
    match goal with A : nth_error (objs s) k = Some (Some ?y), B : thr ?y = None |- _ => rename y into a, A into Ha, B into Na end.
    assert (Hki : k <> i) by (intros ->; unfold live_obj in Ho; congruence). pose proof (nth_len _ _ _ Ha) as Lk.
    match goal with |- context [set_obj (set_obj s k (Some ?y)) j _] => rename y into b end.
    destruct (Nat.eq_dec j i) as [->|Hji].
    + exists k, b. assert (b = o) as -> by (unfold live_obj in Ho; congruence). split; auto. unfold live_obj. cbn [set_obj objs]. rewrite nth_error_set_nth_neq by lia. now rewrite nth_error_set_nth_eq.
    + exists i, o. split; auto. unfold live_obj. cbn [set_obj objs]. now rewrite !nth_error_set_nth_neq by lia.
  - cbn [tstep] in H. pose proof (i_owner s I) as Ow. destruct (owner s) as [| |k v|k v] eqn:Eo; try discriminate H; repeat cases_in H; injection H as <-; destruct Ow as (q & Hq & Wq);
      match goal with A : ended s v = true |- _ => apply ended_iff in A; rename A into Ev end;
      (destruct (Nat.eq_dec k i) as [->|Hne];
       [right; right; assert (v = w) as <- by (unfold live_obj in *; congruence); exact Ev
       |left; exists i, o; split; auto; unfold live_obj; cbn [set_owner set_obj objs]; rewrite nth_error_set_nth_neq; auto]).
  - destruct (Nat.eq_dec k i) as [->|Hne]; [right; left; reflexivity|left]. stepinv H. exists i, o. split; auto. unfold live_obj. cbn [set_obj objs]. rewrite nth_error_set_nth_neq; auto.
  - left. stepinv H; [apply K; reflexivity|]. subst. assert (Hne : k <> i) by (intros ->; unfold live_obj in Ho; congruence). exists i, o. split; auto. unfold live_obj. cbn [set_obj objs]. rewrite nth_error_set_nth_neq; auto.
Qed.

Lemma detached_app es es' w : detached es w -> detached (es ++ es') w.
Proof. intros (e1 & i & e2 & s & -> & E & A). exists e1, i, (e2 ++ es'), s. rewrite <- app_assoc. auto. Qed.
Lemma not_lost es s : execution es s -> forall w x, nth_error (workers s) w = Some x -> ph x = Ended \/ detached es w \/ exists i, holds s i w.
Proof.
  intros H. revert es s H. apply (execution_ind (fun es s => forall w x, nth_error (workers s) w = Some x -> ph x = Ended \/ detached es w \/ exists i, holds s i w)).
  - intros w x H. destruct w; discriminate.
  - intros es e s s' X IH X' T w x Hx. destruct (nth_error (workers s) w) as [y|] eqn:Hy.
    + rewrite (step_old s e s' w y T Hy) in Hx. injection Hx as <-. destruct (IH w y Hy) as [P|[D|[i Hi]]].
      * left. now apply (ended_stays s e s').
      * right. left. now apply detached_app.
      * destruct (step_holds s e s' i w (run_Inv es s X) T Hi) as [Hj|[->|(z & Hz & P)]]; [auto| |].
        -- right. left. exists es, i, [], s. auto.
        -- left. rewrite (step_old s e s' w y T Hy) in Hz. injection Hz as <-. exact P.
    + destruct (step_new s e s' w x T Hy Hx) as (-> & -> & ->). right. right. cbn [tstep] in T. destruct (owner s); try discriminate T. injection T as <-.
      exists (length (objs s)). eexists. split; [unfold live_obj; cbn [objs]; rewrite nth_error_app2, Nat.sub_diag by lia; reflexivity|reflexivity].
  - intros es e s X IH T w x Hx. destruct (IH w x Hx) as [P|[D|P]]; auto. right. left. now apply detached_app.
Qed.

(** ---- sleeping ---- *)
Lemma trun_old es : forall s s' w x, trun s es = Some s' -> nth_error (workers s) w = Some x -> exists x', nth_error (workers s') w = Some x' /\ (flag x = true -> flag x' = true).
Proof.
  induction es as [|e es IH]; intros s s' w x H Hx; cbn [trun] in H; [injection H as <-; eauto|].
  destruct (tstep s e) as [[s1| | |]|] eqn:T; try discriminate; [|eauto]. destruct (IH s1 s' w _ H (step_old s e s1 w x T Hx)) as (x' & Hx' & F).
  exists x'. split; auto. intros C. apply F. rewrite wnext_flag. destruct e; auto. now destruct (aimsb _ _ _).
Qed.
Lemma notifying_flag es s w : execution es s -> owner s = Notifying w -> exists x, nth_error (workers s) w = Some x /\ flag x = true.
Proof.
  intros H. revert es s H w. apply (execution_ind (fun es s => forall w, owner s = Notifying w -> exists x, nth_error (workers s) w = Some x /\ flag x = true)); auto; [discriminate|].
  intros es e s s' X IH _ T w Ho. destruct (is_owner e) eqn:Eo.
  - destruct e as [| |i|i j|i| |i| |i|i|v|v|v|v|v|v]; try discriminate Eo; stepinv T; cbn [owner set_owner set_obj] in Ho; try discriminate Ho; try congruence.
    injection Ho as ->. cbn [workers set_owner set_worker]. rewrite nth_error_set_nth_eq; [eauto|]. match goal with A : nth_error (workers s) w = Some _ |- _ => now apply nth_len in A end.
  - assert (E : owner s' = owner s) by (destruct e; try discriminate Eo; stepinv T; reflexivity). rewrite E in Ho. destruct (IH w Ho) as (x & Hx & F).
    eexists. split; [now apply (step_old s e s' w x T)|]. rewrite wnext_flag. destruct e; try discriminate Eo; exact F.
Qed.
Definition awake (x : worker) : Prop := flag x = true /\ ph x <> ToSleep /\ ph x <> Asleep.
Lemma awake_stays s e s' w x : tstep s e = Some (Ok s') -> nth_error (workers s) w = Some x -> awake x -> awake (wnext s e w x).
Proof.
  intros T Hx (F & N1 & N2). unfold awake. rewrite wnext_flag. split; [destruct e; auto; now destruct (aimsb _ _ _)|].
  destruct e as [| |i|i j|i| |i| |i|i|v|v|v|v|v|v]; cbn [wnext]; auto; try (destruct (Nat.eqb_spec v w) as [->|]; auto; rewrite ?F; cbn [ph]; try (split; discriminate)).
  - destruct (aimsb s i w); auto.
  - destruct (owner s); auto. destruct (_ =? w); auto. destruct (ph x) eqn:E; try (now destruct (N1 eq_refl)); try (now destruct (N2 eq_refl)); rewrite ?E; split; discriminate.
  - cbn [tstep] in T. unfold on_worker in T. rewrite Hx in T. destruct (ph x); congruence.
Qed.
Lemma awake_run es : forall s s' w x, trun s es = Some s' -> nth_error (workers s) w = Some x -> awake x -> exists x', nth_error (workers s') w = Some x' /\ awake x'.
Proof.
  induction es as [|e es IH]; intros s s' w x H Hx A; cbn [trun] in H; [injection H as <-; eauto|].
  destruct (tstep s e) as [[s1| | |]|] eqn:T; try discriminate; [|eauto]. eapply IH; [exact H|apply (step_old s e s1 w x T Hx)|apply (awake_stays s e s1 w x T Hx A)].
Qed.
Lemma owner_step s e s' : tstep s e = Some (Ok s') -> forall w, owner s' = Notifying w -> owner s = Notifying w \/ is_stop e = true.
Proof.
  intros T w Ho. destruct e as [| |i|i j|i| |i| |i|i|v|v|v|v|v|v]; auto; left; stepinv T; cbn [owner set_owner set_obj set_worker] in Ho; congruence.
Qed.
Lemma asleep_stays es : forall s s' w, trun s es = Some s' -> at_phase s w Asleep -> owner s <> Notifying w -> ~ In (WSpurious w) es -> forallb (fun e => negb (is_stop e)) es = true ->
  at_phase s' w Asleep.
Proof.
  induction es as [|e es IH]; intros s s' w H (x & Hx & P) No Ns Nt; cbn [trun] in H; [injection H as <-; now exists x|]. cbn [forallb] in Nt. apply andb_prop in Nt as [Ne Nt].
  destruct (tstep s e) as [[s1| | |]|] eqn:T; try discriminate; [|apply (IH s); auto; [now exists x|intros C; apply Ns; now right]].
  apply (IH s1); auto.
  - eexists. split; [now apply (step_old s e s1 w x T)|].
    destruct e as [| |i|i j|i| |i| |i|i|v|v|v|v|v|v]; cbn [wnext]; auto; try discriminate Ne;
      try (destruct (Nat.eqb_spec v w) as [->|]; auto; exfalso; cbn [tstep] in T; unfold on_worker in T; rewrite Hx, P in T; try discriminate T; apply Ns; now left).
    destruct (owner s) as [|v| |]; auto. destruct (Nat.eqb_spec v w) as [->|]; auto. congruence.
  - intros C. destruct (owner_step s e s1 T w C) as [C'|C']; [contradiction|]. rewrite C' in Ne. discriminate.
  - intros C. apply Ns. now right.
Qed.
Lemma waits_stay es : forall s s' w i, trun s es = Some s' -> owner s = Joining i w \/ owner s = Dying i w -> (exists x, nth_error (workers s) w = Some x /\ flag x = false /\ (ph x = AtCheck \/ ph x = ToSleep \/ ph x = Asleep)) ->
  owner s' = owner s /\ (exists x, nth_error (workers s') w = Some x /\ flag x = false /\ (ph x = AtCheck \/ ph x = ToSleep \/ ph x = Asleep)).
Proof.
  induction es as [|e es IH]; intros s s' w i H Ho (x & Hx & F & P); cbn [trun] in H; [injection H as <-; split; auto; now exists x|].
  destruct (tstep s e) as [[s1| | |]|] eqn:T; try discriminate; [|apply (IH s s' w i); auto; now exists x].
  assert (Nb : owner s <> Idle /\ forall v, owner s <> Notifying v) by (destruct Ho as [-> | ->]; split; discriminate). destruct Nb as [Nb Nv].
  assert (Ne : ended s w = false) by (unfold ended; rewrite Hx; destruct P as [-> | [-> | ->]]; reflexivity).
  assert (Eo : is_owner e = false).
  { destruct e as [| |k|k j|k| |k| |k|k|v|v|v|v|v|v]; auto; exfalso; cbn [tstep] in T; unfold on_obj in T; destruct (owner s) eqn:Eow; try congruence; try discriminate T; try (now apply (Nv w0)).
    - destruct Ho as [Ho|Ho]; [|discriminate]. injection Ho as -> ->. rewrite Ne in T. discriminate.
    - destruct Ho as [Ho|Ho]; [discriminate|]. injection Ho as -> ->. rewrite Ne in T. discriminate. }
  assert (E : owner s1 = owner s) by (destruct e; try discriminate Eo; stepinv T; reflexivity). rewrite <- E.
  apply (IH s1 s' w i); auto; [now rewrite E|]. eexists. split; [now apply (step_old s e s1 w x T)|].
  destruct e as [| |k|k j|k| |k| |k|k|v|v|v|v|v|v]; try discriminate Eo; cbn [wnext]; (destruct (Nat.eqb_spec v w) as [->|]; [|auto]); cbn [flag ph]; rewrite ?F; auto;
    exfalso; cbn [tstep] in T; unfold on_worker in T; rewrite Hx in T; destruct P as [P|[P|P]]; rewrite P in T; discriminate.
Qed.

(** the next event of the owner *)
Lemma workers_run es : forall s s', trun s es = Some s' -> forallb (fun e => negb (is_owner e)) es = true -> objs s' = objs s /\ owner s' = owner s /\ length (workers s') = length (workers s).
Proof.
  induction es as [|e es IH]; intros s s' H F; cbn [trun] in H; [injection H as <-; auto|]. cbn [forallb] in F. apply andb_prop in F as [Fe F].
  destruct (tstep s e) as [[s1| | |]|] eqn:T; try discriminate; [|auto]. destruct (IH _ _ H F) as (-> & -> & ->).
  destruct e; try discriminate Fe; stepinv T; cbn [objs owner workers set_worker]; rewrite length_set_nth; auto.
Qed.
Lemma owner_next es a l s s' : trun s es = Some s' -> filter is_owner es = a :: l ->
  exists s1 es2, objs s1 = objs s /\ owner s1 = owner s /\ length (workers s1) = length (workers s) /\
    match tstep s1 a with Some (Ok s2) => trun s2 es2 = Some s' | Some Throw => trun s1 es2 = Some s' | _ => False end /\ filter is_owner es2 = l.
Proof.
  revert s. induction es as [|e es IH]; intros s H F; cbn [filter] in F; [discriminate|]. cbn [trun] in H. destruct (is_owner e) eqn:Eo.
  - injection F as -> <-. exists s, es. split; auto. split; auto. split; auto. split; auto. destruct (tstep s a) as [[s1| | |]|]; auto; discriminate.
  - assert (X : exists s1, trun s1 es = Some s' /\ trun s [e] = Some s1) by (cbn [trun]; destruct (tstep s e) as [[s1| | |]|]; try discriminate; eauto).
    destruct X as (s1 & H1 & H0). destruct (workers_run [e] s s1 H0) as (E1 & E2 & E3); [cbn [forallb]; now rewrite Eo|].
    destruct (IH s1 H1 F) as (s2 & es2 & Y1 & Y2 & Y3 & Y). exists s2, es2. split; [congruence|]. split; [congruence|]. split; [congruence|exact Y].
Qed.
