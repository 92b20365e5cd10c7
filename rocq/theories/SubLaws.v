(** C55: the subscription streams of the visualisation server. *)
From Coq Require Import String.
From Verif Require Import Common CacheModel CacheSpec CacheProofs SubModel SubSpec SubProofs.
Local Open Scope list_scope.

(** ---- refinement to the cache's consumers ---- *)
Section Refine.
Context {K T : Type} (hash : T -> K) (keqb : K -> K -> bool).

Lemma wake_app c l i (x : @consumer T) :
  i < length l -> wake (@mksys K T c (l ++ [x])) i = mksys (shared (wake (mksys c l) i)) (consumers (wake (mksys c l) i) ++ [x]).
Proof.
  intros H. unfold wake; simpl. rewrite nth_error_app1 by auto.
  destruct (nth_error l i) as [k|] eqn:E; auto. unfold upd_consumer; simpl. f_equal.
  clear E. revert i H. induction l as [|a l IH]; intros i H; simpl in *; [lia|].
  destruct i; simpl; auto. f_equal. apply IH; lia.
Qed.

Lemma set_nth_app_lt {A} (l : list A) i a x : i < length l -> set_nth i a (l ++ [x]) = set_nth i a l ++ [x].
Proof.
  revert i. induction l as [|b l IH]; intros i H; simpl in *; [lia|]. destruct i; simpl; auto. f_equal. apply IH; lia.
Qed.

(** one more consumer that has done nothing yet *)
Lemma reach_more n ds s : reach_with hash keqb n anything ds s ->
  reach_with hash keqb (S n) anything ds (mksys (shared s) (consumers s ++ [mkcons None false []])).
Proof.
  induction 1 as [|ds s e s' H IH _ He Hx]; simpl.
  - change [mkcons None false []] with (repeat (@mkcons T None false []) 1). rewrite <- repeat_app, Nat.add_1_r. apply rw_new.
  - eapply rw_step; [exact IH|exact I| |].
    + destruct e as [d [i|]|i|i]; simpl in *.
      * destruct He as (k & E & W). exists k. split; auto. rewrite nth_error_app1; auto. apply nth_error_Some; congruence.
      * intros k Hk. apply in_app_or in Hk as [Hk|[<-|[]]]; auto.
      * destruct He as (k & E & W). exists k. split; auto. rewrite nth_error_app1; auto. apply nth_error_Some; congruence.
      * destruct He as (k & E & W). exists k. split; auto. rewrite nth_error_app1; auto. apply nth_error_Some; congruence.
    + destruct s as [c l]. destruct e as [d w|i|i]; simpl in *.
      * destruct (add_latest hash keqb c d) as [c'| | |]; simpl in *; try discriminate. injection Hx as <-.
        destruct w as [i|]; auto. f_equal. apply wake_app. destruct He as (k & E & _). apply nth_error_Some; congruence.
      * destruct He as (k & E & _). assert (Hi : i < length l) by (apply nth_error_Some; congruence).
        unfold rd in *. rewrite nth_error_app1 by auto. destruct (nth_error l i) as [k'|]; simpl in *; try discriminate.
        destruct (get_latest c (citer k')) as [[v it]| | |]; simpl in *; try discriminate. injection Hx as <-.
        unfold upd_consumer; simpl. now rewrite set_nth_app_lt.
      * injection Hx as <-. f_equal. apply wake_app. destruct He as (k & E & _). apply nth_error_Some; congruence.
Qed.
End Refine.

Section Refine2.
Context {K T : Type} (hash : kind -> T -> K) (keqb : K -> K -> bool).
Notation step := (sstep hash keqb).
Implicit Types s : @server K T.

Definition view (k : kind) s : @sys K T := mksys (get_cache s k) (map (as_consumer k) (streams s)).

Lemma map_set_nth {A B} (f : A -> B) i x l : map f (set_nth i x l) = set_nth i (f x) (map f l).
Proof. revert i; induction l as [|a l IH]; intros [|i]; simpl; auto. f_equal; auto. Qed.

Lemma set_nth_id {A} i (x : A) l : nth_error l i = Some x -> set_nth i x l = l.
Proof. revert i; induction l as [|a l IH]; intros [|i]; simpl; try discriminate; [now intros [= ->]|]. intros H; f_equal; auto. Qed.

Lemma view_same k s i x y :
  nth_error (streams s) i = Some x -> as_consumer k y = as_consumer k x -> view k (set_stream s i y) = view k s.
Proof.
  intros E H. unfold view. destruct k; simpl; f_equal; rewrite map_set_nth, H; apply set_nth_id; rewrite nth_error_map, E; auto.
Qed.

Lemma view_upd k s i y : view k (set_stream s i y) = upd_consumer (view k s) i (as_consumer k y).
Proof. unfold view, upd_consumer. destruct k; simpl; now rewrite map_set_nth. Qed.

Lemma as_consumer_off k x : s_kind x <> k -> as_consumer k x = @mkcons T None false [].
Proof. unfold as_consumer. destruct (kind_eqb (s_kind x) k) eqn:E; auto. apply kind_eqb_eq in E. congruence. Qed.
Lemma kind_refl k : kind_eqb k k = true.
Proof. now destruct k. Qed.
Lemma as_consumer_on x : as_consumer (s_kind x) x =
  @mkcons T (s_iter x) (match s_ph x with Sleeping => true | _ => false end) (s_sent x ++ pending x).
Proof. unfold as_consumer. now rewrite kind_refl. Qed.

Lemma view_nth k s i x : nth_error (streams s) i = Some x -> nth_error (consumers (view k s)) i = Some (as_consumer k x).
Proof. intros E. simpl. now rewrite nth_error_map, E. Qed.

(** a woken stream, seen from the caches *)
Lemma view_woken k s i x : nth_error (streams s) i = Some x -> s_ph x = Sleeping ->
  view k (set_stream s i (at_phase x AtTest)) = (if kind_eqb (s_kind x) k then wake (view k s) i else view k s).
Proof.
  intros E Hp. destruct (kind_eqb (s_kind x) k) eqn:Ek.
  - apply kind_eqb_eq in Ek as <-. unfold wake. rewrite (view_nth _ _ _ _ E), view_upd. f_equal.
    rewrite !as_consumer_on. unfold at_phase. simpl.
    unfold as_consumer. simpl. rewrite kind_refl.
    unfold pending; simpl. rewrite Hp. auto.
  - eapply view_same; eauto. rewrite !as_consumer_off; auto; simpl; intros E0; rewrite E0, kind_refl in Ek; discriminate.
Qed.

Lemma refine es s : srun hash keqb server_new es s ->
  forall k, reach_with (hash k) keqb (length (streams s)) anything (added k es) (view k s).
Proof.
  revert es s.
  refine (run_ind_r hash keqb server_new
    (fun es s => forall k, reach_with (hash k) keqb (length (streams s)) anything (added k es) (view k s)) _ _).
  - intros k. destruct k; apply (rw_new _ _ 0).
  - intros es s e s' Hr IH H k. specialize (IH k).
    assert (Hadd : added k (es ++ [e]) = added k es ++ match e with SAdd k' d _ => if kind_eqb k' k then [d] else [] | _ => [] end).
    { unfold added. rewrite flat_map_app. simpl. now rewrite app_nil_r. }
    rewrite Hadd.
    destruct e as [k' id'|j|j|j|j|j|id'|k' d w| |w| |]; pose proof (step_len hash keqb _ _ _ H) as HL; simpl in HL; simpl in H; rewrite ?app_nil_r.
    + assert (G : view k s' = mksys (shared (view k s)) (consumers (view k s) ++ [mkcons None false []])).
      { unfold view. assert (Hc : get_cache s' k = get_cache s k) by (destruct (stg s); try discriminate; injection H as <-; auto).
        rewrite Hc, HL. simpl. f_equal. rewrite map_app. simpl. unfold as_consumer; simpl. destruct (kind_eqb k' k); auto. }
      rewrite HL, app_length, Nat.add_1_r, G. now apply reach_more.
    + rewrite HL. destruct (nth_error (streams s) j) as [y|] eqn:Ey; [|discriminate]. destruct (s_ph y) eqn:Ep; try discriminate. injection H as <-.
      erewrite (view_same k _ j y); [destruct k; exact IH|exact Ey|]. unfold as_consumer, pending; simpl. now rewrite Ep.
    + rewrite HL. destruct (nth_error (streams s) j) as [y|] eqn:Ey; [|discriminate]. destruct (s_ph y) eqn:Ep; try discriminate. injection H as <-.
      erewrite (view_same k s j y); [exact IH|exact Ey|]. unfold as_consumer, pending; simpl. rewrite Ep. destruct (subscribed s (s_id y)); auto.
    + rewrite HL. destruct (nth_error (streams s) j) as [y|] eqn:Ey; [|discriminate]. destruct (s_ph y) eqn:Ep; try discriminate.
      destruct (get_latest (get_cache s (s_kind y)) (s_iter y)) as [[v it]| | |] eqn:Eg; try discriminate. injection H as <-.
      destruct (kind_eqb (s_kind y) k) eqn:Ek.
      * apply kind_eqb_eq in Ek as <-. rewrite view_upd.
        eapply (rw_step _ _ _ _ (added (s_kind y) es) (view (s_kind y) s) (Read j)); [exact IH|exact I| |].
        -- exists (as_consumer (s_kind y) y). split; [now apply view_nth|]. rewrite as_consumer_on, Ep; auto.
        -- unfold exec, rd. rewrite (view_nth _ _ _ _ Ey), as_consumer_on, Ep. simpl.
           rewrite Eg. simpl. unfold upd_consumer; simpl. do 3 f_equal.
           unfold as_consumer, pending; simpl. rewrite Ep. rewrite kind_refl.
           destruct v; simpl; rewrite ?app_nil_r; auto.
      * erewrite (view_same k s j y); [exact IH|exact Ey|]. rewrite !as_consumer_off; auto; simpl; intros E0; rewrite E0, kind_refl in Ek; discriminate.
    + rewrite HL. destruct (nth_error (streams s) j) as [y|] eqn:Ey; [|discriminate]. destruct (s_ph y) eqn:Ep; try discriminate. injection H as <-.
      erewrite (view_same k s j y); [exact IH|exact Ey|]. unfold as_consumer, pending; simpl. rewrite Ep. simpl. now rewrite app_nil_r.
    + rewrite HL. destruct (nth_error (streams s) j) as [y|] eqn:Ey; [|discriminate]. destruct (s_ph y) eqn:Ep; try discriminate. injection H as <-.
      rewrite (view_woken k s j y); auto. destruct (kind_eqb (s_kind y) k) eqn:Ek; auto. apply kind_eqb_eq in Ek as <-.
      eapply (rw_step _ _ _ _ (added (s_kind y) es) (view (s_kind y) s) (Wake j)); [exact IH|exact I| |reflexivity].
      exists (as_consumer (s_kind y) y). split; [now apply view_nth|]. rewrite as_consumer_on, Ep; auto.
    + rewrite HL. assert (view k s' = view k s) as ->; auto. destruct (stg s); try discriminate; injection H as <-; auto.
    + rewrite HL. destruct (add_latest (hash k') keqb (get_cache s k') d) as [c| | |] eqn:Ea; try discriminate.
      destruct (notify_one (set_cache s k' c) k' w) as [s1|] eqn:En; [|discriminate]. injection H as <-.
      assert (Hs : streams (set_cache s k' c) = streams s) by (destruct k'; auto).
      destruct (kind_eqb k' k) eqn:Ek.
      * apply kind_eqb_eq in Ek as ->.
        assert (Hc : get_cache (set_cache s k c) k = c) by (destruct k; auto).
        assert (Hv : view k (set_cache s k c) = mksys c (consumers (view k s))) by (unfold view; rewrite Hc, Hs; auto).
        eapply (rw_step _ _ _ _ (added k es) (view k s) (Add d w)); [exact IH|exact I| |].
        -- unfold notify_one in En. simpl. destruct w as [i|].
           ++ rewrite Hs in En. destruct (nth_error (streams s) i) as [y|] eqn:Ey; [|discriminate].
              destruct (asleep_on k y) eqn:Ay; [|discriminate]. exists (as_consumer k y). split; [now rewrite nth_error_map, Ey|].
              unfold asleep_on in Ay. apply andb_true_iff in Ay as [A1 A2]. unfold as_consumer. rewrite A1. auto.
           ++ rewrite Hs in En. destruct (existsb (asleep_on k) (streams s)) eqn:Ex; [discriminate|].
              intros z Hz. apply in_map_iff in Hz as (y & <- & Hy).
              assert (asleep_on k y = false) as Ay.
              { apply not_true_iff_false. intros A. apply not_true_iff_false in Ex. apply Ex, existsb_exists. eauto. }
              unfold asleep_on in Ay. unfold as_consumer. destruct (kind_eqb (s_kind y) k); simpl in *; auto.
        -- simpl. rewrite Ea. simpl. f_equal. unfold notify_one in En. destruct w as [i|].
           ++ rewrite Hs in En. destruct (nth_error (streams s) i) as [y|] eqn:Ey; [|discriminate].
              destruct (asleep_on k y) eqn:Ay; [|discriminate]. injection En as <-.
              unfold asleep_on in Ay. apply andb_true_iff in Ay as [A1 A2].
              rewrite (view_woken k _ i y); [|rewrite Hs; auto|destruct (s_ph y); try discriminate; auto].
              rewrite A1, Hv. reflexivity.
           ++ destruct (existsb _ _); [discriminate|]. injection En as <-. now rewrite Hv.
      * rewrite app_nil_r.
        assert (Hv : view k (set_cache s k' c) = view k s) by (unfold view; rewrite Hs; destruct k, k'; try discriminate; auto).
        destruct (notify_cases _ _ _ _ En) as [->|(i & y & -> & Ey & Hk & Ep & ->)]; [rewrite Hv; auto|].
        rewrite (view_woken k _ i y); auto. rewrite Hk, Ek, Hv. auto.
    + rewrite HL. assert (view k s' = view k s) as ->; auto. destruct (stg s); try discriminate; injection H as <-; destruct k; auto.
    + rewrite HL. assert (G : forall k' g s1, notify_one (set_stage s g) k' w = Some s1 ->
        reach_with (hash k) keqb (length (streams s)) anything (added k es) (view k s1)).
      { intros k' g s1 En. assert (Hv : view k (set_stage s g) = view k s) by (destruct k; auto).
        destruct (notify_cases _ _ _ _ En) as [->|(i & y & -> & Ey & Hk & Ep & ->)]; [rewrite Hv; auto|].
        rewrite (view_woken k _ i y); auto. rewrite Hv. destruct (kind_eqb (s_kind y) k) eqn:Ek; auto. apply kind_eqb_eq in Ek as <-.
        simpl in Ey.
        eapply (rw_step _ _ _ _ (added (s_kind y) es) (view (s_kind y) s) (Wake i)); [exact IH|exact I| |reflexivity].
        exists (as_consumer (s_kind y) y). split; [now apply view_nth|]. rewrite as_consumer_on, Ep; auto. }
      destruct (stg s); try discriminate.
      * destruct (notify_one (set_stage s EscapedN) NodeK w) as [s1|] eqn:En; [|discriminate]. injection H as <-. eauto.
      * destruct (notify_one (set_stage s Escaped) EdgeK w) as [s1|] eqn:En; [|discriminate]. injection H as <-. eauto.
    + rewrite HL. assert (view k s' = view k s) as ->; auto. destruct (stg s); try discriminate; injection H as <-; destruct k; auto.
    + rewrite HL. assert (view k s' = view k s) as ->; auto. destruct (stg s); try discriminate.
      destruct (forallb finished (streams s)); [|discriminate]; injection H as <-; destruct k; auto.
Qed.
End Refine2.

(** Seen from one cache, the streams of its kind are consumers of that cache running
    concurrently (so all of C40 applies to them): what a stream has sent, plus the message it is
    about to send, is what its consumer has read. Streams of the other kind, subscriptions and
    the shutdown have no influence on the cache. *)
Lemma C55_streams_are_consumers_lemma : forall (K T : Type) (hash : kind -> T -> K) (keqb : K -> K -> bool) es s,
  srun hash keqb server_new es s ->
  forall k, reach_with (hash k) keqb (length (streams s)) anything (added k es)
              (mksys (get_cache s k) (map (as_consumer k) (streams s))).
Proof. intros K T hash keqb es s H k. exact (refine hash keqb es s H k). Qed.

Lemma get_latest_in K T (c : @cache K T) it d it' : get_latest c it = Ok (Some d, it') -> exists a n, nth_error (nodes c) a = Some n /\ dat n = d.
Proof.
  unfold get_latest. destruct it as [a|].
  - destruct (grab_truth c (Some a)) as [[b it]| | |]; try discriminate. simpl.
    destruct it as [i|]; try discriminate. unfold rd. destruct (nth_error (nodes c) i) as [n|] eqn:E; try discriminate. simpl.
    destruct b; [intros [= <- _]; eauto|].
    destruct (nxt n) as [j|]; [|discriminate]. destruct (nth_error (nodes c) j) as [m|] eqn:E2; simpl; try discriminate. intros [= <- _]; eauto.
  - destruct (chead c) as [a|]; [|discriminate]. unfold rd. destruct (nth_error (nodes c) a) as [n|] eqn:E; simpl; try discriminate.
    intros [= <- _]; eauto.
Qed.

Lemma got_added K T (hash : T -> K) keqb : (forall a b, keqb a b = true <-> a = b) ->
  forall n ds s, reach_with hash keqb n anything ds s -> forall k d, In k (consumers s) -> In d (got k) -> In d ds.
Proof.
  intros Hk n ds s H. induction H as [|ds s e s' H IH _ He Hx]; intros k d Hin Hd.
  - simpl in Hin. apply repeat_spec in Hin as ->. destruct Hd.
  - assert (W : forall s0 : sys, (forall k d, In k (consumers s0) -> In d (got k) -> In d ds) ->
        forall i k d, In k (consumers (@wake K T s0 i)) -> In d (got k) -> In d ds).
    { intros s0 H0 i k0 d0 Hk0 Hd0. unfold wake in Hk0. destruct (nth_error (consumers s0) i) as [y|] eqn:E; [|eauto].
      simpl in Hk0. apply In_nth_error in Hk0 as (j & Ej). destruct (Nat.eq_dec i j) as [->|Hne].
      - rewrite nth_error_set_nth_eq in Ej by (apply nth_error_Some; congruence). injection Ej as <-.
        apply (H0 y d0); auto. eapply nth_error_In; eauto.
      - rewrite nth_error_set_nth_neq in Ej by auto. apply (H0 k0 d0); auto. eapply nth_error_In; eauto. }
    destruct e as [a w|i|i]; simpl in Hx.
    + destruct (add_latest hash keqb (shared s) a) as [c| | |]; try discriminate. injection Hx as <-.
      apply in_or_app; left. destruct w as [i|]; [|simpl in Hin; eauto].
      eapply (W (mksys c (consumers s))); eauto.
    + unfold rd in Hx. destruct (nth_error (consumers s) i) as [y|] eqn:E; try discriminate. simpl in Hx.
      destruct (get_latest (shared s) (citer y)) as [[v it]| | |] eqn:Eg; try discriminate. injection Hx as <-.
      simpl in Hin. apply In_nth_error in Hin as (j & Ej). destruct (Nat.eq_dec i j) as [->|Hne].
      * rewrite nth_error_set_nth_eq in Ej by (apply nth_error_Some; congruence). injection Ej as <-.
        apply nth_error_In in E. destruct v as [a|]; simpl in Hd; [|eauto].
        apply in_app_or in Hd as [Hd|[<-|[]]]; [eauto|].
        apply get_latest_in in Eg as (a0 & nd & En & <-).
        pose proof (reach_rep hash keqb Hk _ _ _ _ H) as R.
        assert (Ha : a0 < length ds). { rewrite <- (rep_len hash keqb _ _ R). apply nth_error_Some; congruence. }
        destruct (nth_error ds a0) as [d0|] eqn:Ed; [|apply nth_error_None in Ed; lia].
        rewrite (rep_node hash keqb _ _ R _ _ Ed) in En. injection En as <-.
        apply nth_error_In in Ed. unfold node_of. destruct (current hash keqb ds a0); auto.
      * rewrite nth_error_set_nth_neq in Ej by auto. eapply IH; eauto. eapply nth_error_In; eauto.
    + injection Hx as <-. eapply (W s); eauto.
Qed.

(** A client only receives messages of the kind it subscribed to that were really added. *)
Lemma C55_sent_were_added_lemma : forall (K T : Type) (hash : kind -> T -> K) (keqb : K -> K -> bool),
  (forall a b, keqb a b = true <-> a = b) ->
  forall es s, srun hash keqb server_new es s ->
  forall x d, In x (streams s) -> In d (s_sent x) -> exists w, In (SAdd (s_kind x) d w) es.
Proof.
  intros K T hash keqb Hk es s H x d Hx Hd.
  pose proof (refine hash keqb es s H (s_kind x)) as R.
  assert (Hin : In d (added (s_kind x) es)).
  { eapply (got_added _ _ _ _ Hk _ _ _ R (as_consumer (s_kind x) x) d).
    - simpl. now apply in_map.
    - rewrite as_consumer_on; simpl. apply in_or_app; auto. }
  unfold added in Hin. apply in_flat_map in Hin as (e & He & Hin).
  destruct e as [ | | | | | | |k d' w| | | |]; try easy. destruct (kind_eqb k (s_kind x)) eqn:E; [|easy].
  apply kind_eqb_eq in E as <-. destruct Hin as [->|[]]. eauto.
Qed.

(** A stream ends only after it has been entered and then EndSubscription for its id or the
    shutdown has removed it. *)
Lemma C55_ends_only_if_revoked_lemma : forall (K T : Type) (hash : kind -> T -> K) (keqb : K -> K -> bool) es s,
  srun hash keqb server_new es s ->
  forall i x, nth_error (streams s) i = Some x -> s_ph x = Done ->
  exists es1 es2 e, es = es1 ++ SEnter i :: es2 /\ In e es2 /\ revokes (s_id x) e.
Proof.
  intros K T hash keqb.
  assert (G : forall es s, srun hash keqb server_new es s ->
    forall i x, nth_error (streams s) i = Some x -> s_ph x <> Entering ->
    exists es1 es2, es = es1 ++ SEnter i :: es2 /\
      ((exists e, In e es2 /\ revokes (s_id x) e) \/ (s_ph x <> Done /\ subscribed s (s_id x) = true))).
  { refine (run_ind_r hash keqb server_new (fun es s => forall i x, nth_error (streams s) i = Some x -> s_ph x <> Entering ->
    exists es1 es2, es = es1 ++ SEnter i :: es2 /\
      ((exists e, In e es2 /\ revokes (s_id x) e) \/ (s_ph x <> Done /\ subscribed s (s_id x) = true))) _ _).
    - intros i x E. destruct i; discriminate.
    - intros es s e s' Hr IH H i x' E' Hp.
      assert (Hold : i < length (streams s) \/ exists k id, e = SSubscribe k id /\ i = length (streams s)).
      { assert (Hi : i < length (streams s')) by (apply nth_error_Some; congruence).
        pose proof (step_len hash keqb _ _ _ H) as HL. destruct e; simpl in HL; try (rewrite HL in Hi; auto; fail).
        rewrite HL, app_length in Hi; simpl in Hi. destruct (Nat.eq_dec i (length (streams s))); [right; eauto|left; lia]. }
      destruct Hold as [Hi|(k & id & -> & ->)].
      2: { pose proof (step_len hash keqb _ _ _ H) as HL. simpl in HL. rewrite HL, nth_error_app2, Nat.sub_diag in E' by lia.
           injection E' as <-. simpl in Hp. congruence. }
      destruct (nth_error (streams s) i) as [x|] eqn:E; [|apply nth_error_None in E; lia].
      pose proof (step_keeps hash keqb _ _ _ _ _ H E) as (x1 & E1 & Hid & _). rewrite E' in E1; injection E1 as <-.
      destruct (step_stream hash keqb _ _ _ _ _ H E) as (x1 & E1 & C). rewrite E' in E1; injection E1 as <-.
      assert (Hent : s_ph x = Entering -> e = SEnter i /\ x' = at_phase x AtTest).
      { intros He. destruct C as [[-> _]|[(-> & _ & ->)|[(_ & Hc & _)|[(_ & Hc & _)|[(_ & d & Hc & _)|(_ & _ & Hc & _)]]]]]; try congruence; auto. }
      destruct (s_ph x) eqn:Ep; try (specialize (Hent eq_refl) as [-> ->]; exists es, []; split; auto; right; split;
        [discriminate|]; apply (step_subs hash keqb _ _ _ (s_id x) H); right; exists x; auto; fail).
      all: destruct (IH i x E ltac:(rewrite Ep; discriminate)) as (es1 & es2 & -> & [(e0 & He0 & Hr0)|[Hnd Hs]]);
        [exists es1, (es2 ++ [e]); rewrite <- app_assoc; simpl; split; auto; left; exists e0; split; [apply in_or_app; auto|now rewrite Hid]|].
      all: exists es1, (es2 ++ [e]); rewrite <- app_assoc; simpl; split; auto.
      all: assert (Hd : revokes (s_id x) e \/ subscribed s' (s_id x) = true)
        by (pose proof (step_subs hash keqb _ _ _ (s_id x) H) as Hsub;
            destruct e as [k0 id0|j|j|j|j|j|id0|k0 d0 w| |w| |]; simpl in Hsub |- *; try tauto;
            destruct (String.string_dec id0 (s_id x)); tauto).
      all: (destruct Hd as [Hd|Hd]; [left; exists e; split; [apply in_or_app; simpl; auto|now rewrite Hid]|]).
      all: right; split; [|now rewrite Hid].
      all: destruct C as [[-> _]|[(-> & Hc & ->)|[(-> & Hc & ->)|[(-> & Hc & v & it & _ & ->)|[(-> & d' & Hc & ->)|(_ & _ & Hc & ->)]]]]]; simpl; try congruence.
      + rewrite Hs. discriminate.
      + destruct v; discriminate. }
  intros es s H i x E Hd. destruct (G es s H i x E ltac:(rewrite Hd; discriminate)) as (es1 & es2 & -> & [(e & He & Hr)|[Hn _]]); [|congruence].
  exists es1, es2, e. auto.
Qed.

(** Once an id is not subscribed and no handler enters it again, every stream with this id sends
    at most one more message (none unless it was already past its test) and takes at most three
    more steps; *)
Lemma C55_after_end_lemma : forall (K T : Type) (hash : kind -> T -> K) (keqb : K -> K -> bool) (s s' : @server K T) es,
  srun hash keqb s es s' ->
  forall id, subscribed s id = false ->
  (forall j y, In (SEnter j) es -> nth_error (streams s') j = Some y -> s_id y <> id) ->
  forall i x, nth_error (streams s) i = Some x -> s_id x = id ->
  exists x' l, nth_error (streams s') i = Some x' /\ s_sent x' = s_sent x ++ l /\
    length l + messages_left x' <= messages_left x <= 1 /\
    count (own i) es + steps_left x' <= steps_left x <= 3 /\
    subscribed s' id = false.
Proof.
  intros K T hash keqb s s' es H. induction H as [s|s e s1 es s2 H1 H2 IH]; intros id Hs Hne i x Ex Hid.
  - exists x, []. rewrite app_nil_r. repeat split; auto; unfold messages_left, steps_left; destruct (s_ph x); simpl; lia.
  - assert (Hs1 : subscribed s1 id = false).
    { apply not_true_iff_false. intros Hc. apply (step_subs hash keqb _ _ _ id H1) in Hc.
      destruct e as [k id'|j|j|j|j|j|id'|k d w| |w| |]; try congruence; try tauto; try (destruct Hc; congruence).
      destruct Hc as [Hc|(y & Ey & Hy)]; [congruence|].
      destruct (step_keeps hash keqb _ _ _ _ _ H1 Ey) as (y1 & Ey1 & Hy1 & _).
      destruct (run_keeps hash keqb _ _ _ _ _ H2 Ey1) as (y2 & Ey2 & Hy2 & _).
      apply (Hne j y2); simpl; auto. congruence. }
    destruct (step_stream hash keqb _ _ _ _ _ H1 Ex) as (x1 & Ex1 & C).
    destruct (step_keeps hash keqb _ _ _ _ _ H1 Ex) as (x1' & Ex1' & Hid1 & _). rewrite Ex1 in Ex1'. injection Ex1' as <-.
    destruct (IH id Hs1 ltac:(intros j y Hj; apply Hne; simpl; auto) i x1 Ex1 ltac:(congruence)) as (x2 & l & Ex2 & Hl & Hm & Hc & Hsub).
    unfold count in *. simpl.
    destruct C as [[-> Ho]|[(-> & _ & _)|[(-> & Hc1 & ->)|[(-> & Hc1 & v & it & _ & ->)|[(-> & d' & Hc1 & ->)|(_ & Ho & Hc1 & ->)]]]]].
    + rewrite Ho. exists x2, l. auto.
    + exfalso. destruct (run_keeps hash keqb _ _ _ _ _ H2 Ex1) as (y2 & Ey2 & Hy2 & _). apply (Hne i y2); simpl; auto. congruence.
    + exists x2, l. simpl. rewrite Nat.eqb_refl. simpl in *. subst id. rewrite Hs in *.
      unfold messages_left, steps_left in *. rewrite Hc1. simpl in *. repeat split; auto; lia.
    + exists x2, l. simpl. rewrite Nat.eqb_refl. simpl in *.
      unfold messages_left, steps_left in *. rewrite Hc1. destruct v; simpl in *; repeat split; auto; lia.
    + exists x2, (d' :: l). simpl. rewrite Nat.eqb_refl. simpl in *. rewrite <- app_assoc in Hl. simpl in Hl.
      unfold messages_left, steps_left in *. rewrite Hc1. simpl in *. repeat split; auto; lia.
    + rewrite Ho. exists x2, l. simpl in *.
      unfold messages_left, steps_left in *. rewrite Hc1. simpl in *. repeat split; auto; lia.
Qed.

(** and a handler is never blocked except asleep: unless it has returned or sleeps, it can take
    its next step. *)
Lemma C55_only_sleep_blocks_lemma : forall (K T : Type) (hash : kind -> T -> K) (keqb : K -> K -> bool) (s : @server K T) i x,
  nth_error (streams s) i = Some x -> s_ph x <> Done -> s_ph x <> Sleeping ->
  exists e, own i e = true /\ sstep hash keqb s e <> None.
Proof.
  intros K T hash keqb s i x E H1 H2. destruct (s_ph x) as [| | | |d|] eqn:Ep; try congruence.
  - exists (SEnter i). simpl. rewrite Nat.eqb_refl, E, Ep. split; auto; discriminate.
  - exists (STest i). simpl. rewrite Nat.eqb_refl, E, Ep. split; auto; discriminate.
  - exists (SRead i). simpl. rewrite Nat.eqb_refl, E, Ep. split; auto; discriminate.
  - exists (SWrite i). simpl. rewrite Nat.eqb_refl, E, Ep. split; auto; discriminate.
Qed.

(** A sleeping handler sleeps on, whatever happens, until a message of its kind is added, a
    spurious wake-up occurs or the shutdown's escape_wait picks it. *)
Lemma C55_sleeps_on_lemma : forall (K T : Type) (hash : kind -> T -> K) (keqb : K -> K -> bool) (s s' : @server K T) es,
  srun hash keqb s es s' ->
  forall i x, nth_error (streams s) i = Some x -> s_ph x = Sleeping ->
  (forall e, In e es -> ~ may_wake (s_kind x) i e) ->
  nth_error (streams s') i = Some x.
Proof.
  intros K T hash keqb s s' es H. induction H as [s|s e s1 es s2 H1 H2 IH]; intros i x Ex Hp Hw; auto.
  destruct (step_stream hash keqb _ _ _ _ _ H1 Ex) as (x1 & Ex1 & C).
  destruct C as [[-> Ho]|[(-> & Hc1 & _)|[(-> & Hc1 & ->)|[(-> & Hc1 & v & it & _ & ->)|[(-> & d' & Hc1 & ->)|(Hm & Ho & Hc1 & ->)]]]]]; try congruence.
  - apply IH; auto. intros e' He'; apply Hw; simpl; auto.
  - exfalso. apply (Hw e); simpl; auto.
Qed.

(** When spawn_server has returned every handler has returned, and nothing is sent any more. *)
Lemma C55_returned_lemma : forall (K T : Type) (hash : kind -> T -> K) (keqb : K -> K -> bool) es s,
  srun hash keqb server_new es s -> stg s = Returned ->
  (forall x, In x (streams s) -> s_ph x = Done) /\
  forall es' s', srun hash keqb s es' s' -> streams s' = streams s /\ stg s' = Returned.
Proof.
  intros K T hash keqb.
  assert (Keep : forall (s : @server K T) e s', stg s = Returned -> (forall x, In x (streams s) -> s_ph x = Done) ->
    sstep hash keqb s e = Some (Ok s') -> streams s' = streams s /\ stg s' = Returned).
  { intros s e s' Hg Hd H. split.
    - assert (HL : length (streams s') = length (streams s)).
      { pose proof (step_len hash keqb _ _ _ H) as HL. pose proof (step_stage hash keqb _ _ _ H) as HS.
        destruct e; auto. destruct HS as (_ & _ & HS). congruence. }
      apply nth_error_ext. intros i. destruct (nth_error (streams s) i) as [x|] eqn:E.
      + destruct (step_stream hash keqb _ _ _ _ _ H E) as (x1 & E1 & C). rewrite E1.
        assert (Hx : s_ph x = Done) by (apply Hd; eapply nth_error_In; eauto).
        destruct C as [[-> _]|[(_ & Hc & _)|[(_ & Hc & _)|[(_ & Hc & _)|[(_ & d' & Hc & _)|(_ & _ & Hc & _)]]]]]; congruence.
      + apply nth_error_None. apply nth_error_None in E. lia.
    - pose proof (step_stage hash keqb _ _ _ H) as HS. destruct e; try congruence; destruct HS; try congruence; destruct H0; congruence. }
  assert (D : forall es s, srun hash keqb server_new es s -> stg s = Returned -> forall x, In x (streams s) -> s_ph x = Done).
  { refine (run_ind_r hash keqb server_new (fun es s => stg s = Returned -> forall x, In x (streams s) -> s_ph x = Done) _ _).
    - discriminate.
    - intros es s e s' Hr IH H Hg x Hx. pose proof (step_stage hash keqb _ _ _ H) as HS.
      assert (Cs : stg s = Returned \/ e = SReturn).
      { destruct e; try (left; congruence); try (right; reflexivity).
        - left; destruct HS; congruence.
        - destruct HS; congruence.
        - destruct HS as [[]|[]]; congruence.
        - destruct HS; congruence. }
      destruct Cs as [Hs| -> ].
      + destruct (Keep s e s' Hs (IH Hs) H) as [E _]. rewrite E in Hx. auto.
      + destruct HS as (_ & Hf & ->). simpl in Hx. rewrite forallb_forall in Hf. specialize (Hf x Hx).
        unfold finished in Hf. destruct (s_ph x); try discriminate; auto. }
  intros es s H Hg. split; [eapply D; eauto|].
  pose proof (D es s H Hg) as Hd. clear H es. intros es' s' H'.
  induction H' as [s|s e s1 es s2 H1 H2 IH]; auto.
  destruct (Keep s e s1 Hg Hd H1) as [E1 E2]. destruct (IH E2 ltac:(rewrite E1; auto)) as [E3 E4]. split; congruence.
Qed.

Lemma sum_set_nth i (x y : nat) l : nth_error l i = Some x ->
  fold_right Nat.add 0 (set_nth i y l) + x = fold_right Nat.add 0 l + y.
Proof.
  revert i; induction l as [|a l IH]; intros [|i]; simpl; try discriminate.
  - intros [= ->]. lia.
  - intros H. specialize (IH i H). lia.
Qed.

(** Once Shutdown has been called with no id subscribed and every handler before its test, about
    to write or returned: whatever happens, the handlers and the server take only boundedly many
    more steps, and until spawn_server has returned one of these steps is possible. *)
Lemma C55_shutdown_completes_lemma : forall (K T : Type) (hash : kind -> T -> K) (keqb : K -> K -> bool) (s s' : @server K T) es,
  srun hash keqb s es s' ->
  stg s = Stopping -> (forall id, subscribed s id = false) -> (forall x, In x (streams s) -> will_return x) ->
  count progress es <= S (work s) /\
  (stg s' = Returned \/ exists e s'', progress e = true /\ sstep hash keqb s' e = Some (Ok s'')).
Proof.
  intros K T hash keqb.
  assert (G : forall (s s' : @server K T) es, srun hash keqb s es s' ->
    (stg s = Stopping \/ (stg s = Returned /\ work s = 0)) -> (forall id, subscribed s id = false) -> (forall x, In x (streams s) -> will_return x) ->
    count progress es + work s' + (match stg s' with Returned => 0 | _ => 1 end) <= work s + (match stg s with Returned => 0 | _ => 1 end) /\
    (stg s' = Stopping \/ stg s' = Returned) /\ (forall id, subscribed s' id = false) /\ (forall x, In x (streams s') -> will_return x)).
  { intros s s' es H. induction H as [s|s e s1 es s2 H1 H2 IH]; intros Hg Hs Hw.
    - repeat split; auto; try tauto.
    - assert (St : forall i x x1, nth_error (streams s) i = Some x -> s1 = set_stream s i x1 -> s_id x1 = s_id x ->
        steps_left x1 < steps_left x -> will_return x1 -> progress e = true -> stg s1 = stg s ->
        count progress (e :: es) + work s2 + (match stg s2 with Returned => 0 | _ => 1 end) <= work s + (match stg s with Returned => 0 | _ => 1 end) /\
        (stg s2 = Stopping \/ stg s2 = Returned) /\ (forall id, subscribed s2 id = false) /\ (forall x, In x (streams s2) -> will_return x)).
      { intros i x x1 Ex -> _ Hlt Hw1 Hp Hg1.
        assert (Hwork : work (set_stream s i x1) + steps_left x = work s + steps_left x1).
        { unfold work. simpl. rewrite map_set_nth. apply sum_set_nth. now rewrite nth_error_map, Ex. }
        assert (Hg' : stg s = Stopping). { destruct Hg as [Hg|[Hg H0]]; auto. lia. }
        destruct IH as (I1 & I2 & I3 & I4).
        - left. simpl. auto.
        - exact Hs.
        - intros y Hy. apply In_nth_error in Hy as (j & Ej). simpl in Ej. destruct (Nat.eq_dec i j) as [->|Hne].
          + rewrite nth_error_set_nth_eq in Ej by (apply nth_error_Some; congruence). now injection Ej as <-.
          + rewrite nth_error_set_nth_neq in Ej by auto. apply Hw. eapply nth_error_In; eauto.
        - split; [|auto]. unfold count in *. simpl filter. rewrite Hp. simpl length. rewrite Hg1 in I1. lia. }
      assert (Same : streams s1 = streams s -> stg s1 = stg s -> (forall id, subscribed s1 id = false) -> progress e = false ->
        count progress (e :: es) + work s2 + (match stg s2 with Returned => 0 | _ => 1 end) <= work s + (match stg s with Returned => 0 | _ => 1 end) /\
        (stg s2 = Stopping \/ stg s2 = Returned) /\ (forall id, subscribed s2 id = false) /\ (forall x, In x (streams s2) -> will_return x)).
      { intros E1 E2 E3 E4. assert (Hwork : work s1 = work s) by (unfold work; now rewrite E1).
        destruct IH as (I1 & I2 & I3 & I4).
        - rewrite E2, Hwork; auto.
        - auto.
        - now rewrite E1.
        - split; [|auto]. unfold count in *. simpl filter. rewrite E4. rewrite Hwork, E2 in I1. auto. }
      assert (Hg' : stg s = Stopping \/ stg s = Returned) by tauto.
      destruct e as [k id'|j|j|j|j|j|id'|k d w| |w| |]; pose proof (step_stage hash keqb _ _ _ H1) as HS; simpl in HS.
      + destruct HS as (_ & N1 & N2). tauto.
      + simpl in H1. destruct (nth_error (streams s) j) as [y|] eqn:Ey; [|discriminate].
        assert (Hy : will_return y) by (apply Hw; eapply nth_error_In; eauto). unfold will_return in Hy.
        destruct (s_ph y) eqn:Ep; try discriminate. tauto.
      + simpl in H1. destruct (nth_error (streams s) j) as [y|] eqn:Ey; [|discriminate].
        destruct (s_ph y) eqn:Ep; try discriminate. rewrite Hs in H1. injection H1 as <-.
        eapply (St j y); eauto; unfold steps_left; simpl; rewrite ?Ep; auto; try lia. exact I.
      + simpl in H1. destruct (nth_error (streams s) j) as [y|] eqn:Ey; [|discriminate].
        assert (Hy : will_return y) by (apply Hw; eapply nth_error_In; eauto). unfold will_return in Hy.
        destruct (s_ph y) eqn:Ep; try discriminate. tauto.
      + simpl in H1. destruct (nth_error (streams s) j) as [y|] eqn:Ey; [|discriminate].
        destruct (s_ph y) eqn:Ep; try discriminate. injection H1 as <-.
        eapply (St j y); eauto; unfold steps_left; simpl; rewrite ?Ep; auto; try lia. exact I.
      + simpl in H1. destruct (nth_error (streams s) j) as [y|] eqn:Ey; [|discriminate].
        assert (Hy : will_return y) by (apply Hw; eapply nth_error_In; eauto). unfold will_return in Hy.
        destruct (s_ph y) eqn:Ep; try discriminate. tauto.
      + apply Same; auto.
        * simpl in H1. destruct (stg s); try discriminate; injection H1 as <-; auto.
        * intros id. apply not_true_iff_false. intros Hc. apply (step_subs hash keqb _ _ _ id H1) in Hc as [Hc _]. rewrite Hs in Hc. discriminate.
      + apply Same; auto.
        * simpl in H1. destruct (add_latest (hash k) keqb (get_cache s k) d) as [c| | |]; try discriminate.
          destruct (notify_one (set_cache s k c) k w) as [s3|] eqn:En; [|discriminate]. injection H1 as <-.
          assert (Hst : streams (set_cache s k c) = streams s) by (destruct k; auto).
          destruct (notify_cases _ _ _ _ En) as [->|(i & y & -> & Ey & Hk & Ep & ->)]; auto.
          rewrite Hst in Ey. apply nth_error_In in Ey. apply Hw in Ey. unfold will_return in Ey. rewrite Ep in Ey. tauto.
        * intros id. apply not_true_iff_false. intros Hc. apply (step_subs hash keqb _ _ _ id H1) in Hc. rewrite Hs in Hc. discriminate.
      + destruct HS as [HS _]. rewrite HS in Hg'. destruct Hg'; discriminate.
      + destruct HS as [[HS _]|[HS _]]; rewrite HS in Hg'; destruct Hg'; discriminate.
      + destruct HS as [HS _]. rewrite HS in Hg'. destruct Hg'; discriminate.
      + destruct HS as (HS & Hf & ->).
        assert (W0 : work s = 0).
        { unfold work. rewrite forallb_forall in Hf. clear -Hf. induction (streams s) as [|y l IHl]; auto. simpl.
          rewrite IHl by (intros z Hz; apply Hf; simpl; auto). specialize (Hf y (or_introl eq_refl)). unfold finished in Hf.
          unfold steps_left. destruct (s_ph y); try discriminate; auto. }
        destruct IH as (I1 & I2 & I3 & I4); auto.
        split; auto. unfold count in *. simpl in *. rewrite HS. unfold work in *. simpl in *. lia. }
  intros s s' es H Hg Hs Hw. destruct (G s s' es H (or_introl Hg) Hs Hw) as (I1 & I2 & I3 & I4).
  rewrite Hg in I1. split; [lia|].
  destruct I2 as [I2|I2]; auto. right.
  destruct (forallb finished (streams s')) eqn:Ef.
  - exists SReturn. simpl. rewrite I2, Ef. eauto.
  - assert (exists x, In x (streams s') /\ finished x = false) as (x & Hx & Hf).
    { clear -Ef. induction (streams s') as [|y l IHl]; simpl in *; [discriminate|]. destruct (finished y) eqn:E; eauto.
      destruct (IHl Ef) as (x & Hx & Hf); eauto. }
    specialize (I4 x Hx). apply In_nth_error in Hx as (i & Ei). unfold will_return in I4. unfold finished in Hf.
    destruct (s_ph x) as [| | | |d|] eqn:Ep; try tauto; try discriminate.
    + exists (STest i). simpl. rewrite Ei, Ep. eauto.
    + exists (SWrite i). simpl. rewrite Ei, Ep. eauto.
Qed.

(** Finding: a handler asleep when the shutdown's notifications are over keeps spawn_server from
    returning until another message of its kind is added (or a spurious wake-up). *)
Lemma C55_sleeper_blocks_shutdown_lemma : forall (K T : Type) (hash : kind -> T -> K) (keqb : K -> K -> bool) (s s' : @server K T) es,
  srun hash keqb s es s' -> stg s = Escaped \/ stg s = Stopping ->
  forall i x, nth_error (streams s) i = Some x -> s_ph x = Sleeping ->
  (forall e, In e es -> match e with SAdd k _ _ => k <> s_kind x | SWake j => j <> i | _ => True end) ->
  stg s' <> Returned /\ nth_error (streams s') i = Some x.
Proof.
  intros K T hash keqb s s' es H. induction H as [s|s e s1 es s2 H1 H2 IH]; intros Hg i x Ex Hp Hw.
  - split; auto. destruct Hg as [-> | ->]; discriminate.
  - assert (Ex1 : nth_error (streams s1) i = Some x).
    { destruct (step_stream hash keqb _ _ _ _ _ H1 Ex) as (x1 & Ex1 & C).
      destruct C as [[-> Ho]|[(-> & Hc1 & _)|[(-> & Hc1 & ->)|[(-> & Hc1 & v & it & _ & ->)|[(-> & d' & Hc1 & ->)|(Hm & Ho & Hc1 & ->)]]]]]; try congruence.
      exfalso. specialize (Hw e (or_introl eq_refl)). pose proof (step_stage hash keqb _ _ _ H1) as HS.
      destruct e; simpl in Hm; try tauto; try congruence. destruct HS as [[HS _]|[HS _]]; rewrite HS in Hg; destruct Hg; discriminate. }
    apply IH; auto; [|intros e' He'; apply Hw; simpl; auto].
    pose proof (step_stage hash keqb _ _ _ H1) as HS.
    destruct e; try (rewrite HS; exact Hg).
    + destruct HS as [-> _]; auto.
    + destruct HS as [HS _]; rewrite HS in Hg; destruct Hg; discriminate.
    + destruct HS as [[HS _]|[HS _]]; rewrite HS in Hg; destruct Hg; discriminate.
    + destruct HS as [_ ->]; auto.
    + destruct HS as (_ & Hf & _). rewrite forallb_forall in Hf. apply nth_error_In in Ex. apply Hf in Ex. unfold finished in Ex.
      rewrite Hp in Ex. discriminate.
Qed.

(** Finding: a stream subscribed after the shutdown has cleared the subscriptions never returns,
    whatever is added or wakes it, unless its client ends the subscription; spawn_server does not
    return. *)
Lemma C55_late_subscriber_blocks_shutdown_lemma : forall (K T : Type) (hash : kind -> T -> K) (keqb : K -> K -> bool) (s s' : @server K T) es,
  srun hash keqb s es s' -> stg s <> Serving -> stg s <> Returned ->
  forall i x, nth_error (streams s) i = Some x -> subscribed s (s_id x) = true -> s_ph x <> Done ->
  ~ In (SEnd (s_id x)) es ->
  stg s' <> Returned /\ exists x', nth_error (streams s') i = Some x' /\ s_ph x' <> Done.
Proof.
  intros K T hash keqb s s' es H. induction H as [s|s e s1 es s2 H1 H2 IH]; intros Hg0 Hg i x Ex Hs Hp Hw.
  - split; eauto.
  - pose proof (step_stage hash keqb _ _ _ H1) as HS.
    destruct (step_stream hash keqb _ _ _ _ _ H1 Ex) as (x1 & Ex1 & C).
    destruct (step_keeps hash keqb _ _ _ _ _ H1 Ex) as (x1' & Ex1' & Hid & _). rewrite Ex1 in Ex1'. injection Ex1' as <-.
    apply (IH) with (x := x1); auto.
    + destruct e; try (rewrite HS; exact Hg0).
      * destruct HS as [-> _]; auto.
      * destruct HS as [_ ->]; discriminate.
      * destruct HS as [[_ ->]|[_ ->]]; discriminate.
      * destruct HS as [_ ->]; discriminate.
      * destruct HS as (_ & _ & ->). discriminate.
    + destruct e; try (rewrite HS; exact Hg).
      * destruct HS as [-> _]; auto.
      * destruct HS as [_ ->]; discriminate.
      * destruct HS as [[_ ->]|[_ ->]]; discriminate.
      * destruct HS as [_ ->]; discriminate.
      * destruct HS as (_ & Hf & _). rewrite forallb_forall in Hf. apply nth_error_In in Ex. apply Hf in Ex. unfold finished in Ex.
        destruct (s_ph x); try discriminate. congruence.
    + rewrite Hid. apply (step_subs hash keqb _ _ _ (s_id x) H1). destruct e; auto.
      * split; auto. intros ->. apply Hw; simpl; auto.
      * destruct HS; congruence.
    + destruct C as [[-> Ho]|[(-> & Hc1 & ->)|[(-> & Hc1 & ->)|[(-> & Hc1 & v & it & _ & ->)|[(-> & d' & Hc1 & ->)|(Hm & Ho & Hc1 & ->)]]]]]; simpl; try congruence.
      * rewrite Hs; discriminate.
      * destruct v; discriminate.
    + rewrite Hid. intros Hin; apply Hw; simpl; auto.
Qed.

(** ---- concrete executions ---- *)

(** messages for the examples are pairs whose first component is the key *)
Notation ex_run := (srun (fun _ : kind => @fst nat nat) Nat.eqb).
Notation ex_server := (@server nat (nat * nat)).

Fixpoint srunf (s : ex_server) (es : list (@sevent (nat * nat))) : option ex_server :=
  match es with
  | [] => Some s
  | e :: es => match sstep (fun _ : kind => @fst nat nat) Nat.eqb s e with Some (Ok s') => srunf s' es | _ => None end
  end.
Lemma srunf_ok es : forall s s', srunf s es = Some s' -> ex_run s es s'.
Proof.
  induction es as [|e es IH]; intros s s'; simpl.
  - intros [= <-]; constructor.
  - destruct (sstep _ _ s e) as [[s1| | |]|] eqn:E; try discriminate. intros H. econstructor; eauto.
Qed.

(** Finding: one subscriber suffices for a shutdown that never completes. Its handler has tested
    the subscription just before clear_subscriptions, and goes to sleep after escape_wait. *)
Lemma C55_lost_wakeup_refuted_lemma : exists es (s : ex_server) x,
  ex_run server_new es s /\ stg s = Stopping /\ streams s = [x] /\ s_ph x = Sleeping /\ subs s = [] /\
  forall es' s', ex_run s es' s' ->
    (forall e, In e es' -> match e with SAdd k _ _ => k <> s_kind x | SWake j => j <> 0 | _ => True end) ->
    stg s' <> Returned.
Proof.
  pose (es := [SSubscribe NodeK "a"%string; SEnter 0; STest 0; SClear; SEscape None; SEscape None; SRead 0; SShutdown] : list (@sevent (nat*nat))).
  let r := eval vm_compute in (srunf server_new es) in
    match r with Some ?s => exists es, s; let l := eval vm_compute in (streams s) in match l with [?x] => exists x end end.
  split; [apply srunf_ok; vm_compute; reflexivity|]. do 4 (split; [reflexivity|]).
  intros es' s' H He. eapply C55_sleeper_blocks_shutdown_lemma with (i := 0) in H; [tauto|right; reflexivity|reflexivity|reflexivity|exact He].
Qed.

(** Finding: nor does it with two clients asleep on the same cache: escape_wait wakes only one. *)
Lemma C55_two_sleepers_refuted_lemma : exists es (s : ex_server) x y,
  ex_run server_new es s /\ stg s = Stopping /\ streams s = [x; y] /\ s_ph x = Done /\ s_ph y = Sleeping /\ subs s = [] /\
  forall es' s', ex_run s es' s' ->
    (forall e, In e es' -> match e with SAdd k _ _ => k <> s_kind y | SWake j => j <> 1 | _ => True end) ->
    stg s' <> Returned.
Proof.
  pose (es := [SSubscribe NodeK "a"%string; SEnter 0; STest 0; SRead 0; SSubscribe NodeK "b"%string; SEnter 1; STest 1; SRead 1;
               SClear; SEscape (Some 0); SEscape None; SShutdown; STest 0] : list (@sevent (nat*nat))).
  let r := eval vm_compute in (srunf server_new es) in
    match r with Some ?s => exists es, s; let l := eval vm_compute in (streams s) in match l with [?x; ?y] => exists x, y end end.
  split; [apply srunf_ok; vm_compute; reflexivity|]. do 5 (split; [reflexivity|]).
  intros es' s' H He. eapply C55_sleeper_blocks_shutdown_lemma with (i := 1) in H; [tauto|right; reflexivity|reflexivity|reflexivity|exact He].
Qed.

(** Finding: a client that subscribes between clear_subscriptions and Shutdown blocks it until it
    unsubscribes. *)
Lemma C55_late_subscriber_refuted_lemma : exists es (s : ex_server) x,
  ex_run server_new es s /\ stg s = Stopping /\ streams s = [x] /\ s_id x = "a"%string /\
  forall es' s', ex_run s es' s' -> ~ In (SEnd "a"%string) es' -> stg s' <> Returned.
Proof.
  pose (es := [SClear; SEscape None; SEscape None; SSubscribe EdgeK "a"%string; SEnter 0; SShutdown] : list (@sevent (nat*nat))).
  let r := eval vm_compute in (srunf server_new es) in
    match r with Some ?s => exists es, s; let l := eval vm_compute in (streams s) in match l with [?x] => exists x end end.
  split; [apply srunf_ok; vm_compute; reflexivity|]. do 3 (split; [reflexivity|]).
  intros es' s' H He. eapply C55_late_subscriber_blocks_shutdown_lemma with (i := 0) in H;
    [tauto|discriminate|discriminate|reflexivity|reflexivity|discriminate|exact He].
Qed.

(** Finding: EndSubscription ends nothing while its stream sleeps, and if the client subscribes
    again with the same id before the next message, the old stream is revived and both streams
    send. *)
Lemma C55_revived_refuted_lemma : exists es (s : ex_server) x y,
  ex_run server_new es s /\ streams s = [x; y] /\ s_id x = s_id y /\
  s_sent x = [(1, 10)] /\ s_sent y = [(1, 10)] /\
  (exists es1 es2 w, es = es1 ++ SEnd (s_id x) :: es2 /\ ~ In (SEnter 0) es2 /\ In (SAdd NodeK (1, 10) w) es2 /\ In (SWrite 0) es2).
Proof.
  pose (es1 := [SSubscribe NodeK "a"%string; SEnter 0; STest 0; SRead 0] : list (@sevent (nat*nat))).
  pose (es2 := [SSubscribe NodeK "a"%string; SEnter 1; SAdd NodeK (1,10) (Some 0); STest 0; SRead 0; SWrite 0; STest 1; SRead 1; SWrite 1] : list (@sevent (nat*nat))).
  let r := eval vm_compute in (srunf server_new (es1 ++ SEnd "a"%string :: es2)) in
    match r with Some ?s => exists (es1 ++ SEnd "a"%string :: es2), s; let l := eval vm_compute in (streams s) in match l with [?x; ?y] => exists x, y end end.
  split; [apply srunf_ok; vm_compute; reflexivity|]. do 4 (split; [reflexivity|]).
  exists es1, es2, (Some 0). split; [reflexivity|]. unfold es2. simpl. repeat split; auto 10.
  intros H. repeat (destruct H as [H|H]; [discriminate|]). exact H.
Qed.

(** The hypotheses are met: two clients, messages of both kinds; one ends its subscription while
    about to write and the server then shuts down and returns. *)
Lemma C55_nonvacuous_lemma : exists es1 es2 (s1 s : ex_server) x y,
  ex_run server_new es1 s1 /\ ex_run s1 es2 s /\
  subscribed s1 "a"%string = false /\ ~ In (SEnter 0) es2 /\
  messages_left x = 1 /\ steps_left x = 2 /\ nth_error (streams s1) 0 = Some x /\ s_sent x = [(1, 10)] /\
  streams s = [mkstream NodeK "a"%string (Some 1) Done [(1, 10); (2, 20)]; y] /\ s_kind y = EdgeK /\ s_sent y = [(3, 30)] /\
  stg s = Returned /\ added NodeK es1 = [(1, 10); (2, 20)] /\ count (own 0) es2 = 2.
Proof.
  pose (es1 := [SSubscribe NodeK "a"%string; SSubscribe EdgeK "b"%string; SEnter 0; STest 0; SRead 0; SAdd NodeK (1,10) (Some 0); SAdd NodeK (2,20) None;
                SAdd EdgeK (3,30) None; SEnter 1; STest 0; SRead 0; SWrite 0; STest 0; SRead 0; STest 1; SEnd "a"%string] : list (@sevent (nat*nat))).
  pose (es2 := [SWrite 0; SRead 1; SWrite 1; STest 1; SRead 1; STest 0; SClear; SEscape None; SEscape (Some 1); SShutdown; STest 1; SReturn] : list (@sevent (nat*nat))).
  let r := eval vm_compute in (srunf server_new es1) in
  match r with Some ?s1 =>
    let r2 := eval vm_compute in (srunf s1 es2) in match r2 with Some ?s =>
      exists es1, es2, s1, s;
      let l := eval vm_compute in (streams s1) in match l with ?x :: _ => exists x end;
      let l := eval vm_compute in (streams s) in match l with [_; ?y] => exists y end
    end end.
  split; [apply srunf_ok; vm_compute; reflexivity|]. split; [apply srunf_ok; vm_compute; reflexivity|].
  split; [reflexivity|]. split.
  { simpl. intros H. repeat (destruct H as [H|H]; [discriminate|]). exact H. }
  repeat split.
Qed.

(** and the situation of C55_shutdown_completes is reachable with a handler about to write. *)
Lemma C55_shutdown_nonvacuous_lemma : exists es (s : ex_server),
  ex_run server_new es s /\ stg s = Stopping /\ (forall id, subscribed s id = false) /\
  (forall x, In x (streams s) -> will_return x) /\ work s = 2.
Proof.
  pose (es := [SSubscribe NodeK "a"%string; SEnter 0; SAdd NodeK (1,10) None; STest 0; SRead 0; SClear; SEscape None; SEscape None; SShutdown] : list (@sevent (nat*nat))).
  let r := eval vm_compute in (srunf server_new es) in match r with Some ?s => exists es, s end.
  split; [apply srunf_ok; vm_compute; reflexivity|]. split; [reflexivity|]. split; [reflexivity|]. split; [|reflexivity].
  simpl. intros x [<-|[]]. exact I.
Qed.
