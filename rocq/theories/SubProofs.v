(** Lemmas for the subscription streams. *)
From Coq Require Import String.
From Verif Require Import Common CacheModel CacheSpec CacheProofs SubModel SubSpec.
Local Open Scope list_scope.

Section Proofs.
Context {K T : Type} (hash : kind -> T -> K) (keqb : K -> K -> bool).
Notation step := (sstep hash keqb).
Notation run := (srun hash keqb).
Implicit Types (s : @server K T) (x : @stream T).

Lemma kind_eqb_eq a b : kind_eqb a b = true <-> a = b.
Proof. destruct a, b; simpl; split; congruence. Qed.

Lemma run_app s es1 s1 es2 s2 : run s es1 s1 -> run s1 es2 s2 -> run s (es1 ++ es2) s2.
Proof. induction 1; simpl; auto. intros; econstructor; eauto. Qed.

Lemma run_snoc_inv s es e s2 : run s (es ++ [e]) s2 -> exists s1, run s es s1 /\ step s1 e = Some (Ok s2).
Proof.
  revert s. induction es as [|a es IH]; intros s H; simpl in H; inversion H; subst.
  - match goal with H : run _ [] _ |- _ => inversion H; subst end. exists s. split; [constructor|auto].
  - destruct (IH _ H5) as (s1' & H1 & H2). exists s1'. split; auto. econstructor; eauto.
Qed.

(** induction on executions from the end *)
Lemma run_ind_r s0 (P : list sevent -> @server K T -> Prop) :
  P [] s0 -> (forall es s e s', run s0 es s -> P es s -> step s e = Some (Ok s') -> P (es ++ [e]) s') ->
  forall es s, run s0 es s -> P es s.
Proof.
  intros H0 HS es. induction es as [|e es IH] using rev_ind; intros s H.
  - inversion H; subst; auto.
  - apply run_snoc_inv in H as (s1 & H1 & H2). eauto.
Qed.

Lemma set_stream_same s i x y : nth_error (streams s) i = Some y -> nth_error (streams (set_stream s i x)) i = Some x.
Proof. intros H. simpl. apply nth_error_set_nth_eq. apply nth_error_Some; congruence. Qed.
Lemma set_stream_other s i j x : i <> j -> nth_error (streams (set_stream s i x)) j = nth_error (streams s) j.
Proof. intros H. simpl. apply nth_error_set_nth_neq; auto. Qed.

Lemma notify_cases s k w s' : notify_one s k w = Some s' ->
  s' = s \/ exists i x, w = Some i /\ nth_error (streams s) i = Some x /\ s_kind x = k /\ s_ph x = Sleeping /\
                        s' = set_stream s i (at_phase x AtTest).
Proof.
  unfold notify_one. destruct w as [i|].
  - destruct (nth_error (streams s) i) as [x|] eqn:E; [|discriminate].
    destruct (asleep_on k x) eqn:A; [|discriminate]. intros [= <-]. right. exists i, x.
    unfold asleep_on in A. apply andb_true_iff in A as [A1 A2]. apply kind_eqb_eq in A1.
    destruct (s_ph x); try discriminate. auto.
  - destruct (existsb _ _); [discriminate|]. intros [= <-]. auto.
Qed.

(** what a step does to one stream *)
Lemma step_stream s e s' i x : step s e = Some (Ok s') -> nth_error (streams s) i = Some x ->
  exists x', nth_error (streams s') i = Some x' /\
  ( (x' = x /\ own i e = false)
  \/ (e = SEnter i /\ s_ph x = Entering /\ x' = at_phase x AtTest)
  \/ (e = STest i /\ s_ph x = AtTest /\ x' = at_phase x (if subscribed s (s_id x) then Reading else Done))
  \/ (e = SRead i /\ s_ph x = Reading /\ exists v it, get_latest (get_cache s (s_kind x)) (s_iter x) = Ok (v, it) /\
        x' = mkstream (s_kind x) (s_id x) it (match v with Some d => Writing d | None => Sleeping end) (s_sent x))
  \/ (e = SWrite i /\ exists d, s_ph x = Writing d /\ x' = mkstream (s_kind x) (s_id x) (s_iter x) AtTest (s_sent x ++ [d]))
  \/ (may_wake (s_kind x) i e /\ own i e = false /\ s_ph x = Sleeping /\ x' = at_phase x AtTest) ).
Proof.
  intros H Hx. destruct e as [k id|j|j|j|j|j|id|k d w| |w| |]; simpl in H.
  - exists x. split; [|left; auto]. destruct (stg s); try discriminate; injection H as <-; simpl;
      rewrite nth_error_app1; auto; apply nth_error_Some; congruence.
  - destruct (nth_error (streams s) j) as [y|] eqn:Ey; [|discriminate].
    destruct (s_ph y) eqn:Ep; try discriminate. injection H as <-.
    destruct (Nat.eq_dec j i) as [->|Hne].
    + rewrite Hx in Ey; injection Ey as <-. eexists. split; [eapply nth_error_set_nth_eq, nth_error_Some; simpl; congruence|]. auto.
    + exists x. split; [simpl; rewrite nth_error_set_nth_neq; auto|]. left. split; auto. simpl. now apply Nat.eqb_neq.
  - destruct (nth_error (streams s) j) as [y|] eqn:Ey; [|discriminate].
    destruct (s_ph y) eqn:Ep; try discriminate. injection H as <-.
    destruct (Nat.eq_dec j i) as [->|Hne].
    + rewrite Hx in Ey; injection Ey as <-. eexists. split; [eapply nth_error_set_nth_eq, nth_error_Some; simpl; congruence|]. auto 10.
    + exists x. split; [simpl; rewrite nth_error_set_nth_neq; auto|]. left. split; auto. simpl. now apply Nat.eqb_neq.
  - destruct (nth_error (streams s) j) as [y|] eqn:Ey; [|discriminate].
    destruct (s_ph y) eqn:Ep; try discriminate.
    destruct (get_latest (get_cache s (s_kind y)) (s_iter y)) as [[v it]| | |] eqn:Eg; try discriminate.
    injection H as <-. simpl.
    destruct (Nat.eq_dec j i) as [->|Hne].
    + rewrite Hx in Ey; injection Ey as <-. eexists. split; [eapply nth_error_set_nth_eq, nth_error_Some; simpl; congruence|].
      right; right; right; left. split; auto. split; auto. exists v, it. auto.
    + exists x. split; [simpl; rewrite nth_error_set_nth_neq; auto|]. left. split; auto. now apply Nat.eqb_neq.
  - destruct (nth_error (streams s) j) as [y|] eqn:Ey; [|discriminate].
    destruct (s_ph y) as [| | | |d|] eqn:Ep; try discriminate. injection H as <-.
    destruct (Nat.eq_dec j i) as [->|Hne].
    + rewrite Hx in Ey; injection Ey as <-. eexists. split; [eapply nth_error_set_nth_eq, nth_error_Some; simpl; congruence|].
      right; right; right; right; left. split; auto. eauto.
    + exists x. split; [simpl; rewrite nth_error_set_nth_neq; auto|]. left. split; auto. simpl. now apply Nat.eqb_neq.
  - destruct (nth_error (streams s) j) as [y|] eqn:Ey; [|discriminate].
    destruct (s_ph y) eqn:Ep; try discriminate. injection H as <-.
    destruct (Nat.eq_dec j i) as [->|Hne].
    + rewrite Hx in Ey; injection Ey as <-. eexists. split; [eapply nth_error_set_nth_eq, nth_error_Some; simpl; congruence|].
      repeat right. simpl; auto.
    + exists x. split; [simpl; rewrite nth_error_set_nth_neq; auto|]. left; auto.
  - exists x. split; [|left; auto]. destruct (stg s); try discriminate; injection H as <-; auto.
  - destruct (add_latest (hash k) keqb (get_cache s k) d) as [c| | |]; try discriminate.
    destruct (notify_one (set_cache s k c) k w) as [s1|] eqn:En; [|discriminate]. injection H as <-.
    assert (Hs : streams (set_cache s k c) = streams s) by (destruct k; auto).
    destruct (notify_cases _ _ _ _ En) as [->|(j & y & -> & Ey & Ek & Ep & ->)].
    + rewrite Hs. exists x. split; auto.
    + rewrite Hs in Ey. destruct (Nat.eq_dec j i) as [->|Hne].
      * rewrite Hx in Ey; injection Ey as <-. eexists. split; [eapply nth_error_set_nth_eq, nth_error_Some; rewrite Hs; congruence|].
        repeat right. simpl; auto.
      * exists x. split; [simpl; rewrite nth_error_set_nth_neq, Hs; auto|]. left; auto.
  - exists x. split; [|left; auto]. destruct (stg s); try discriminate; injection H as <-; auto.
  - destruct (stg s); try discriminate.
    + destruct (notify_one (set_stage s EscapedN) NodeK w) as [s1|] eqn:En; [|discriminate]. injection H as <-.
      destruct (notify_cases _ _ _ _ En) as [->|(j & y & -> & Ey & Ek & Ep & ->)]; [exists x; split; auto|].
      simpl in Ey. destruct (Nat.eq_dec j i) as [->|Hne].
      * rewrite Hx in Ey; injection Ey as <-. eexists. split; [eapply nth_error_set_nth_eq, nth_error_Some; simpl; congruence|].
        repeat right. simpl; auto.
      * exists x. split; [simpl; rewrite nth_error_set_nth_neq; auto|]. left; auto.
    + destruct (notify_one (set_stage s Escaped) EdgeK w) as [s1|] eqn:En; [|discriminate]. injection H as <-.
      destruct (notify_cases _ _ _ _ En) as [->|(j & y & -> & Ey & Ek & Ep & ->)]; [exists x; split; auto|].
      simpl in Ey. destruct (Nat.eq_dec j i) as [->|Hne].
      * rewrite Hx in Ey; injection Ey as <-. eexists. split; [eapply nth_error_set_nth_eq, nth_error_Some; simpl; congruence|].
        repeat right. simpl; auto.
      * exists x. split; [simpl; rewrite nth_error_set_nth_neq; auto|]. left; auto.
  - exists x. split; [|left; auto]. destruct (stg s); try discriminate; injection H as <-; auto.
  - exists x. split; [|left; auto]. destruct (stg s); try discriminate.
    destruct (forallb finished (streams s)); [|discriminate]. injection H as <-; auto.
Qed.

(** which ids are subscribed after a step *)
Lemma step_subs s e s' id : step s e = Some (Ok s') ->
  (subscribed s' id = true <->
   match e with
   | SEnter j => subscribed s id = true \/ exists x, nth_error (streams s) j = Some x /\ s_id x = id
   | SEnd id' => subscribed s id = true /\ id' <> id
   | SClear => False
   | _ => subscribed s id = true
   end).
Proof.
  intros H. destruct e as [k id'|j|j|j|j|j|id'|k d w| |w| |]; simpl in H.
  - destruct (stg s); try discriminate; injection H as <-; reflexivity.
  - destruct (nth_error (streams s) j) as [y|] eqn:Ey; [|discriminate].
    destruct (s_ph y) eqn:Ep; try discriminate. injection H as <-.
    unfold subscribed at 1. simpl. destruct (subscribed s (s_id y)) eqn:Es.
    + fold (subscribed s id). split; auto. intros [H|(x & [= <-] & <-)]; auto.
    + simpl. rewrite orb_true_iff. fold (subscribed s id). rewrite String.eqb_eq. split.
      * intros [->|H]; auto. right; eauto.
      * intros [H|(x & [= <-] & <-)]; auto.
  - destruct (nth_error (streams s) j) as [y|]; [|discriminate]. destruct (s_ph y); try discriminate. injection H as <-; reflexivity.
  - destruct (nth_error (streams s) j) as [y|]; [|discriminate]. destruct (s_ph y); try discriminate.
    destruct (get_latest (get_cache s (s_kind y)) (s_iter y)) as [[v it]| | |] eqn:Eg; try discriminate. injection H as <-; reflexivity.
  - destruct (nth_error (streams s) j) as [y|]; [|discriminate]. destruct (s_ph y); try discriminate. injection H as <-; reflexivity.
  - destruct (nth_error (streams s) j) as [y|]; [|discriminate]. destruct (s_ph y); try discriminate. injection H as <-; reflexivity.
  - assert (G : s' = set_subs s (filter (fun z : string => negb (String.eqb id' z)) (subs s))).
    { destruct (stg s); try discriminate; injection H as <-; auto. }
    subst s'. unfold subscribed; simpl. rewrite !existsb_exists. split.
    + intros (z & Hz & E). apply filter_In in Hz as [Hz N]. apply String.eqb_eq in E as <-. apply negb_true_iff, String.eqb_neq in N.
      split; auto. exists id. split; auto. apply String.eqb_refl.
    + intros [(z & Hz & E) N]. apply String.eqb_eq in E as <-. exists id. split; [|apply String.eqb_refl].
      apply filter_In. split; auto. now apply negb_true_iff, String.eqb_neq.
  - destruct (add_latest (hash k) keqb (get_cache s k) d) as [c| | |]; try discriminate.
    destruct (notify_one (set_cache s k c) k w) as [s1|] eqn:En; [|discriminate]. injection H as <-.
    destruct (notify_cases _ _ _ _ En) as [->|(j & y & -> & Ey & Ek & Ep & ->)]; destruct k; reflexivity.
  - destruct (stg s); try discriminate; injection H as <-. unfold subscribed; simpl. split; [discriminate|tauto].
  - destruct (stg s); try discriminate.
    + destruct (notify_one (set_stage s EscapedN) NodeK w) as [s1|] eqn:En; [|discriminate]. injection H as <-.
      destruct (notify_cases _ _ _ _ En) as [->|(j & y & -> & Ey & Ek & Ep & ->)]; reflexivity.
    + destruct (notify_one (set_stage s Escaped) EdgeK w) as [s1|] eqn:En; [|discriminate]. injection H as <-.
      destruct (notify_cases _ _ _ _ En) as [->|(j & y & -> & Ey & Ek & Ep & ->)]; reflexivity.
  - destruct (stg s); try discriminate; injection H as <-; reflexivity.
  - destruct (stg s); try discriminate. destruct (forallb finished (streams s)); [|discriminate]. injection H as <-; reflexivity.
Qed.

(** the number of streams and the stage after a step *)
Lemma step_len s e s' : step s e = Some (Ok s') ->
  match e with
  | SSubscribe k id => streams s' = streams s ++ [mkstream k id None Entering []]
  | _ => length (streams s') = length (streams s)
  end.
Proof.
  intros H. destruct e as [k id'|j|j|j|j|j|id'|k d w| |w| |]; simpl in H.
  - destruct (stg s); try discriminate; injection H as <-; reflexivity.
  - destruct (nth_error (streams s) j) as [y|]; [|discriminate]. destruct (s_ph y); try discriminate. injection H as <-; simpl; now rewrite length_set_nth.
  - destruct (nth_error (streams s) j) as [y|]; [|discriminate]. destruct (s_ph y); try discriminate. injection H as <-; simpl; now rewrite length_set_nth.
  - destruct (nth_error (streams s) j) as [y|]; [|discriminate]. destruct (s_ph y); try discriminate.
    destruct (get_latest (get_cache s (s_kind y)) (s_iter y)) as [[v it]| | |] eqn:Eg; try discriminate. injection H as <-; simpl; now rewrite length_set_nth.
  - destruct (nth_error (streams s) j) as [y|]; [|discriminate]. destruct (s_ph y); try discriminate. injection H as <-; simpl; now rewrite length_set_nth.
  - destruct (nth_error (streams s) j) as [y|]; [|discriminate]. destruct (s_ph y); try discriminate. injection H as <-; simpl; now rewrite length_set_nth.
  - destruct (stg s); try discriminate; injection H as <-; reflexivity.
  - destruct (add_latest (hash k) keqb (get_cache s k) d) as [c| | |]; try discriminate.
    destruct (notify_one (set_cache s k c) k w) as [s1|] eqn:En; [|discriminate]. injection H as <-.
    destruct (notify_cases _ _ _ _ En) as [->|(j & y & -> & Ey & Ek & Ep & ->)]; simpl; rewrite ?length_set_nth; destruct k; reflexivity.
  - destruct (stg s); try discriminate; injection H as <-; reflexivity.
  - destruct (stg s); try discriminate.
    + destruct (notify_one (set_stage s EscapedN) NodeK w) as [s1|] eqn:En; [|discriminate]. injection H as <-.
      destruct (notify_cases _ _ _ _ En) as [->|(j & y & -> & Ey & Ek & Ep & ->)]; simpl; rewrite ?length_set_nth; reflexivity.
    + destruct (notify_one (set_stage s Escaped) EdgeK w) as [s1|] eqn:En; [|discriminate]. injection H as <-.
      destruct (notify_cases _ _ _ _ En) as [->|(j & y & -> & Ey & Ek & Ep & ->)]; simpl; rewrite ?length_set_nth; reflexivity.
  - destruct (stg s); try discriminate; injection H as <-; reflexivity.
  - destruct (stg s); try discriminate. destruct (forallb finished (streams s)); [|discriminate]. injection H as <-; reflexivity.
Qed.

Lemma step_stage s e s' : step s e = Some (Ok s') ->
  match e with
  | SSubscribe _ _ => stg s' = stg s /\ stg s <> Stopping /\ stg s <> Returned
  | SClear => stg s = Serving /\ stg s' = Cleared
  | SEscape _ => (stg s = Cleared /\ stg s' = EscapedN) \/ (stg s = EscapedN /\ stg s' = Escaped)
  | SShutdown => stg s = Escaped /\ stg s' = Stopping
  | SReturn => stg s = Stopping /\ forallb finished (streams s) = true /\ s' = set_stage s Returned
  | _ => stg s' = stg s
  end.
Proof.
  intros H. destruct e as [k id'|j|j|j|j|j|id'|k d w| |w| |]; simpl in H.
  - destruct (stg s) eqn:E; try discriminate; injection H as <-; repeat split; auto; discriminate.
  - destruct (nth_error (streams s) j) as [y|]; [|discriminate]. destruct (s_ph y); try discriminate. injection H as <-; reflexivity.
  - destruct (nth_error (streams s) j) as [y|]; [|discriminate]. destruct (s_ph y); try discriminate. injection H as <-; reflexivity.
  - destruct (nth_error (streams s) j) as [y|]; [|discriminate]. destruct (s_ph y); try discriminate.
    destruct (get_latest (get_cache s (s_kind y)) (s_iter y)) as [[v it]| | |] eqn:Eg; try discriminate. injection H as <-; reflexivity.
  - destruct (nth_error (streams s) j) as [y|]; [|discriminate]. destruct (s_ph y); try discriminate. injection H as <-; reflexivity.
  - destruct (nth_error (streams s) j) as [y|]; [|discriminate]. destruct (s_ph y); try discriminate. injection H as <-; reflexivity.
  - destruct (stg s) eqn:E; try discriminate; injection H as <-; auto.
  - destruct (add_latest (hash k) keqb (get_cache s k) d) as [c| | |]; try discriminate.
    destruct (notify_one (set_cache s k c) k w) as [s1|] eqn:En; [|discriminate]. injection H as <-.
    destruct (notify_cases _ _ _ _ En) as [->|(j & y & -> & Ey & Ek & Ep & ->)]; destruct k; reflexivity.
  - destruct (stg s) eqn:E; try discriminate; injection H as <-; auto.
  - destruct (stg s) eqn:E; try discriminate.
    + destruct (notify_one (set_stage s EscapedN) NodeK w) as [s1|] eqn:En; [|discriminate]. injection H as <-.
      destruct (notify_cases _ _ _ _ En) as [->|(j & y & -> & Ey & Ek & Ep & ->)]; auto.
    + destruct (notify_one (set_stage s Escaped) EdgeK w) as [s1|] eqn:En; [|discriminate]. injection H as <-.
      destruct (notify_cases _ _ _ _ En) as [->|(j & y & -> & Ey & Ek & Ep & ->)]; auto.
  - destruct (stg s) eqn:E; try discriminate; injection H as <-; auto.
  - destruct (stg s) eqn:E; try discriminate. destruct (forallb finished (streams s)) eqn:Ef; [|discriminate]. injection H as <-; auto.
Qed.

(** identity and kind of a stream never change; streams never disappear *)
Lemma step_keeps s e s' i x : step s e = Some (Ok s') -> nth_error (streams s) i = Some x ->
  exists x', nth_error (streams s') i = Some x' /\ s_id x' = s_id x /\ s_kind x' = s_kind x.
Proof.
  intros H Hx. destruct (step_stream s e s' i x H Hx) as (x' & Hx' & C). exists x'. split; auto.
  destruct C as [[-> _]|[(_ & _ & ->)|[(_ & _ & ->)|[(_ & _ & v & it & _ & ->)|[(_ & d & _ & ->)|(_ & _ & _ & ->)]]]]]; auto.
Qed.

Lemma run_keeps s es s' i x : run s es s' -> nth_error (streams s) i = Some x ->
  exists x', nth_error (streams s') i = Some x' /\ s_id x' = s_id x /\ s_kind x' = s_kind x.
Proof.
  intros H. revert x. induction H; intros x Hx; [eauto|].
  destruct (step_keeps _ _ _ _ _ H Hx) as (x1 & H1 & A & B).
  destruct (IHsrun _ H1) as (x2 & H2 & A' & B'). exists x2. repeat split; auto; congruence.
Qed.

End Proofs.
