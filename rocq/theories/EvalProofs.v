(** Lemmas about evaluation. *)
From Coq Require Import Permutation.
From Verif Require Import Common EvalModel EvalSpec.

Section P.
Context {V : Type} (compat : V -> V -> bool).
Context (ord : list (enode V) -> nat -> list nat) (top : list (enode V) -> list nat -> option nat).
Context (Hord : valid_order ord).
Context (Htop : valid_top top).
Implicit Types s : estate V.
Local Notation upd := (upd compat ord).
Local Notation notify := (notify compat ord).
Local Notation flush := (flush compat ord top).
Local Notation forward_pass := (forward_pass compat).

Lemma mem_In v l : mem v l = true <-> In v l.
Proof. unfold mem. rewrite existsb_exists. split; [intros [x [H E]]; apply Nat.eqb_eq in E; now subst|intros H; exists v; split; auto; apply Nat.eqb_refl]. Qed.
Lemma mem_not v l : mem v l = false <-> ~ In v l.
Proof. rewrite <- mem_In. destruct (mem v l); split; congruence. Qed.

Lemma audience_In (ns : list (enode V)) v c : In c (audience ns v) <-> In v (args_of ns c).
Proof.
  unfold audience. rewrite filter_In, in_seq. split.
  - intros [_ H]. now apply mem_In in H.
  - intros H. split; [|now apply mem_In]. split; [lia|]. unfold args_of in H. destruct (nth_error ns c) eqn:E; [now apply nth_error_lt in E|destruct H].
Qed.
Lemma audience_NoDup (ns : list (enode V)) v : NoDup (audience ns v).
Proof. apply NoDup_filter, seq_NoDup. Qed.
Lemma ord_In (ns : list (enode V)) v c : In c (ord ns v) <-> In v (args_of ns c).
Proof. rewrite <- audience_In. split; apply Permutation_in; [|apply Permutation_sym]; apply Hord. Qed.
Lemma ord_NoDup (ns : list (enode V)) v : NoDup (ord ns v).
Proof. eapply Permutation_NoDup; [apply Permutation_sym, Hord|apply audience_NoDup]. Qed.

Lemma all_some_None (l : list (option V)) : all_some l = None <-> In None l.
Proof.
  induction l as [|[x|] l IH]; cbn; [split; [discriminate|tauto]| |split; auto].
  destruct (all_some l); split; intros H; try discriminate; [destruct H as [H|H]; [discriminate|apply IH in H; discriminate]|right; now apply IH|auto].
Qed.

(** ---- the structural invariant ---- *)
Record WF s : Prop := {
  wf_vals : length (vals s) = length (nodes s);
  wf_mgr : length (mgr s) = length (nodes s);
  wf_args : forall v args f d, nth_error (nodes s) v = Some (NOp args f d) -> args <> [] /\ forall a, In a args -> a < v;
  wf_man : forall v args f d a, nth_error (nodes s) v = Some (NOp args f d) -> In a args -> is_op (nodes s) a = true -> man s a = man s v;
  wf_queue : NoDup (queue s);
  wf_map : NoDup (qmap s);
  wf_sub : forall v, In v (queue s) -> In v (qmap s);
  wf_ops : forall v, In v (qmap s) -> is_op (nodes s) v = true;
  wf_none : forall v args f d, nth_error (nodes s) v = Some (NOp args f d) -> all_some (map (val s) args) = None -> val s v = None;
  wf_good : forall v args f d, nth_error (nodes s) v = Some (NOp args f d) -> In v (queue s) -> all_some (map (val s) args) <> None
}.

Definition blocked s v : Prop := In v (qmap s) /\ ~ In v (queue s).

(** what notification leaves alone *)
Record ext s s' : Prop := {
  e_nodes : nodes s' = nodes s;
  e_mgr : mgr s' = mgr s;
  e_frozen : frozen s' = frozen s;
  e_leaf : forall v, nth_error (nodes s) v = Some NLeaf -> val s' v = val s v;
  e_some : forall v, val s v <> None -> val s' v <> None;
  e_queue : forall v, In v (queue s) -> In v (queue s');
  e_blocked : forall v, blocked s' v <-> blocked s v;
  e_len : length (queue s') + length (qmap s) = length (queue s) + length (qmap s')
}.

Lemma ext_refl s : ext s s.
Proof. constructor; auto; tauto. Qed.
Lemma ext_trans s1 s2 s3 : ext s1 s2 -> ext s2 s3 -> ext s1 s3.
Proof.
  intros [] []. constructor; try congruence; auto; try lia.
  - intros v H. rewrite e_leaf1 by (now rewrite e_nodes0). auto.
  - intros v. rewrite e_blocked1. auto.
Qed.

Lemma is_op_inv ns v : is_op ns v = true -> exists args f d, nth_error ns v = Some (@NOp V args f d).
Proof. unfold is_op. destruct (nth_error ns v) as [[|args f d]|]; try discriminate. eauto. Qed.
Lemma is_op_intro ns v args f d : nth_error ns v = Some (@NOp V args f d) -> is_op ns v = true.
Proof. unfold is_op. now intros ->. Qed.

Lemma val_set s v x w : v < length (vals s) -> val (set_val s v x) w = if w =? v then Some x else val s w.
Proof.
  intros H. unfold val, set_val; cbn [vals]. destruct (Nat.eqb_spec w v) as [->|Hn].
  - now rewrite nth_error_set_nth_eq.
  - now rewrite nth_error_set_nth_neq by auto.
Qed.

Lemma map_val_none s s' l : (forall v, val s v <> None -> val s' v <> None) -> all_some (map (val s') l) = None -> all_some (map (val s) l) = None.
Proof.
  intros H E. apply all_some_None in E. apply all_some_None. apply in_map_iff in E as [a [Ea Ha]]. apply in_map_iff. exists a. split; auto.
  destruct (val s a) eqn:X; auto. exfalso. apply (H a); auto; congruence.
Qed.
Lemma map_val_some s s' l : (forall v, val s v <> None -> val s' v <> None) -> all_some (map (val s) l) <> None -> all_some (map (val s') l) <> None.
Proof. intros H E C. apply E. eapply map_val_none; eauto. Qed.

(** ---- forward_pass ---- *)
Lemma forward_ok s v args f d vs : WF s -> nth_error (nodes s) v = Some (NOp args f d) -> all_some (map (val s) args) = Some vs ->
  match forward_pass s v with
  | Bad => False
  | Exc s' => s' = set_log s v
  | Done s' _ => exists x, s' = set_val (set_log s v) v x /\ f vs = Some x
  end.
Proof.
  intros W Hn Ha. unfold EvalModel.forward_pass. rewrite Hn. change (val (set_log s v)) with (val s). rewrite Ha.
  destruct (f vs) as [x|]; auto. destruct (val s v) as [o|]; [destruct (compat x o)|]; eauto.
Qed.

Lemma set_log_ext s v : ext s (set_log s v).
Proof. constructor; auto; tauto. Qed.
Lemma set_log_WF s v : WF s -> WF (set_log s v).
Proof. intros []. constructor; auto. Qed.

Lemma set_val_ext s v x args f d : WF s -> nth_error (nodes s) v = Some (NOp args f d) -> ext s (set_val s v x).
Proof.
  intros W Hn. assert (Hl : v < length (vals s)) by (rewrite (wf_vals _ W); now apply nth_error_lt in Hn).
  constructor; auto; try tauto.
  - intros w Hw. rewrite val_set by auto. destruct (Nat.eqb_spec w v) as [->|]; [congruence|auto].
  - intros w Hw. rewrite val_set by auto. destruct (w =? v); [discriminate|auto].
Qed.
Lemma set_val_WF s v x args f d : WF s -> nth_error (nodes s) v = Some (NOp args f d) -> all_some (map (val s) args) <> None -> WF (set_val s v x).
Proof.
  intros W Hn Hg. pose proof (e_some _ _ (set_val_ext s v x _ _ _ W Hn)) as Hs.
  assert (Hl : v < length (vals s)) by (rewrite (wf_vals _ W); now apply nth_error_lt in Hn).
  destruct W. constructor; auto.
  - cbn. now rewrite length_set_nth.
  - intros w a g e Hw Hx. rewrite val_set by auto. pose proof (map_val_none _ _ _ Hs Hx) as Hy.
    destruct (Nat.eqb_spec w v) as [->|]; [|eauto]. cbn [nodes set_val] in Hw. rewrite Hn in Hw. injection Hw as <- <- <-. congruence.
  - intros w a g e Hw Hq. eapply map_val_some; [exact Hs|]. eapply wf_good0; eauto.
Qed.

Lemma add_update_ext s v : WF s -> is_op (nodes s) v = true -> ext s (add_update s v).
Proof.
  intros W Ho. unfold add_update. destruct (mem v (qmap s)) eqn:E; [apply ext_refl|]. apply mem_not in E.
  constructor; auto.
  - intros w Hw. now right.
  - intros w. unfold blocked; cbn [qmap queue set_queue In]. split.
    + intros [[->|H1] H2]; [exfalso; auto|]. tauto.
    + intros [H1 H2]. split; [tauto|]. intros [->|H]; auto.
  - cbn. lia.
Qed.
Lemma add_update_WF s v args f d : WF s -> nth_error (nodes s) v = Some (NOp args f d) -> all_some (map (val s) args) <> None -> WF (add_update s v).
Proof.
  intros W Hn Hg. unfold add_update. destruct (mem v (qmap s)) eqn:E; auto. apply mem_not in E. pose proof (fun H => E (wf_sub _ W v H)) as Eq.
  destruct W. constructor; auto.
  - cbn. constructor; auto.
  - cbn. constructor; auto.
  - intros w [->|H]; [now left|right; auto].
  - intros w [<-|H]; [eapply is_op_intro; eauto|auto].
  - intros w a g e Hw [<-|Hq]; [|eapply wf_good0; eauto]. cbn [nodes set_queue] in Hw. rewrite Hn in Hw. injection Hw as <- <- <-. exact Hg.
Qed.

(** ---- local consistency ---- *)
Section Inv.
(** managers of interest; nodes that have announced themselves *)
Definition Inv s (M : nat -> Prop) (R Q : nat -> Prop) : Prop :=
  forall v args f d, nth_error (nodes s) v = Some (NOp args f d) -> M (man s v) -> ~ Q v -> (exists a, In a args /\ R a) ->
    In v (queue s) \/ (forall vs, all_some (map (val s) args) = Some vs -> R v /\ exists x, f vs = Some x /\ val s v = Some x).

Definition Deep s : Prop := forall v args f d a, nth_error (nodes s) v = Some (NOp args f d) -> In a args -> depth_of (nodes s) a < d.

Definition Bl s (M : nat -> Prop) v : Prop := M (man s v) -> forall b, blocked s b -> man s b = man s v -> depth_of (nodes s) b < depth_of (nodes s) v.

Lemma Inv_weaken s M R (Q Q' : nat -> Prop) : (forall v, Q v -> Q' v) -> Inv s M R Q -> Inv s M R Q'.
Proof. intros H I v args f d Hn HM HQ HR. eapply I; eauto. Qed.

Lemma ext_man s s' v : ext s s' -> man s' v = man s v.
Proof. intros []. unfold man. now rewrite e_mgr0. Qed.

Lemma Bl_ext s s' M v : ext s s' -> Bl s M v -> Bl s' M v.
Proof.
  intros E B HM b Hb Hm. rewrite (ext_man _ _ _ E) in HM. rewrite !(ext_man _ _ _ E) in Hm. rewrite (e_nodes _ _ E). apply B; auto. now apply (e_blocked _ _ E).
Qed.
Lemma Deep_ext s s' : ext s s' -> Deep s -> Deep s'.
Proof. intros E D v args f d a. rewrite (e_nodes _ _ E). apply D. Qed.

Lemma notify_list_ok k l : (forall s v, WF s -> is_op (nodes s) v = true -> length (nodes s) - v <= k ->
    match upd k s v with
    | Bad => False
    | Exc s' => WF s' /\ ext s s'
    | Done s' _ => WF s' /\ ext s s' /\ (Deep s -> forall w, In w (queue s') -> In w (queue s) \/ depth_of (nodes s) v <= depth_of (nodes s) w) /\ forall M R Q, Deep s -> Bl s M v -> Inv s M R (fun w => Q w \/ w = v) -> exists R' : nat -> Prop, (forall w, R w -> R' w) /\ Inv s' M R' Q
    end) ->
  forall s, WF s -> (forall c, In c l -> is_op (nodes s) c = true /\ length (nodes s) - c <= k) ->
    match notify_list (upd k) l s with
    | Bad => False
    | Exc s' => WF s' /\ ext s s'
    | Done s' _ => WF s' /\ ext s s' /\ (Deep s -> forall w, In w (queue s') -> In w (queue s) \/ exists c, In c l /\ depth_of (nodes s) c <= depth_of (nodes s) w) /\ forall M R Q, Deep s -> (forall c, In c l -> Bl s M c) -> Inv s M R (fun w => Q w \/ In w l) -> exists R' : nat -> Prop, (forall w, R w -> R' w) /\ Inv s' M R' Q
    end.
Proof.
  intros IH. induction l as [|c l IHl]; intros s W Hl; cbn [notify_list].
  - split; auto. split; [apply ext_refl|]. split; [auto|]. intros M R Q _ _ I. exists R. split; auto. eapply Inv_weaken; [|exact I]. cbn. tauto.
  - destruct (Hl c (or_introl eq_refl)) as [Ho Hk]. pose proof (IH s c W Ho Hk) as Hc.
    destruct (upd k s c) as [s1 []|s1|]; cbn [obind]; auto. destruct Hc as [W1 [E1 [F1 H1]]].
    assert (Hl1 : forall c0, In c0 l -> is_op (nodes s1) c0 = true /\ length (nodes s1) - c0 <= k) by (intros c0 H0; rewrite (e_nodes _ _ E1); apply Hl; now right).
    pose proof (IHl s1 W1 Hl1) as H2. destruct (notify_list (upd k) l s1) as [s2 []|s2|]; auto.
    + destruct H2 as [W2 [E2 [F2 H2]]]. split; auto. split; [eapply ext_trans; eauto|]. split.
      { intros D w Hw. destruct (F2 (Deep_ext _ _ E1 D) w Hw) as [Hw1|[c0 [Hc0 Hd]]]; [destruct (F1 D w Hw1) as [H0|H0]; [auto|right; exists c; split; [now left|auto]]|].
        right. exists c0. rewrite (e_nodes _ _ E1) in Hd. split; [now right|auto]. }
      intros M R Q D B I.
      destruct (H1 M R (fun w => Q w \/ In w l) D (B c (or_introl eq_refl))) as [R1 [HR1 I1]].
      { eapply Inv_weaken; [|exact I]. cbn. intros w. intuition. }
      destruct (H2 M R1 Q (Deep_ext _ _ E1 D)) as [R2 [HR2 I2]]; auto.
      { intros c0 H0. eapply Bl_ext; [exact E1|]. apply B. now right. }
      exists R2. split; auto.
    + destruct H2 as [W2 E2]. split; auto. eapply ext_trans; eauto.
Qed.

(** announcing: the value of [v] changed, its dependents are pending *)
Lemma Inv_set s M R Q v x args f d vs : WF s -> nth_error (nodes s) v = Some (NOp args f d) -> all_some (map (val s) args) = Some vs -> f vs = Some x ->
  Inv s M R (fun w => Q w \/ w = v) -> Inv (set_val s v x) M (fun w => R w \/ w = v) (fun w => Q w \/ In w (ord (nodes s) v)).
Proof.
  intros W Hn Ha Hf I w a g e Hw HM HQ HR. cbn [nodes set_val] in Hw. change (man (set_val s v x) w) with (man s w) in HM. change (queue (set_val s v x)) with (queue s).
  assert (Hl : v < length (vals s)) by (rewrite (wf_vals _ W); now apply nth_error_lt in Hn).
  assert (Hva : ~ In v a). { intros C. apply HQ. right. apply ord_In. unfold args_of. now rewrite Hw. }
  assert (Em : map (val (set_val s v x)) a = map (val s) a).
  { apply map_ext_in. intros b Hb. rewrite val_set by auto. destruct (Nat.eqb_spec b v) as [->|]; [contradiction|auto]. }
  rewrite Em. destruct (Nat.eq_dec w v) as [->|Hwv].
  - right. intros vs' Hvs. rewrite Hn in Hw. injection Hw as <- <- <-. rewrite Ha in Hvs. injection Hvs as <-. split; [now right|].
    exists x. split; auto. rewrite val_set by auto. now rewrite Nat.eqb_refl.
  - destruct (I w a g e Hw HM) as [H|H].
    + intros [C|C]; [apply HQ; now left|contradiction].
    + destruct HR as [b [Hb [Rb| ->]]]; [eauto|contradiction].
    + now left.
    + right. intros vs' Hvs. destruct (H vs' Hvs) as [H1 [y [H2 H3]]]. split; [now left|]. exists y. split; auto.
      rewrite val_set by auto. destruct (Nat.eqb_spec w v); [congruence|auto].
Qed.

Lemma child_facts s v c : WF s -> is_op (nodes s) v = true -> In c (ord (nodes s) v) -> is_op (nodes s) c = true /\ v < c /\ man s c = man s v /\ c < length (nodes s).
Proof.
  intros W Ho Hc. apply ord_In in Hc. unfold args_of in Hc. destruct (nth_error (nodes s) c) as [[|a f d]|] eqn:E; try contradiction.
  split; [eapply is_op_intro; eauto|]. split; [eapply (wf_args _ W); eauto|]. split; [symmetry; eapply (wf_man _ W); eauto|now apply nth_error_lt in E].
Qed.
Lemma child_facts0 s v c : WF s -> In c (ord (nodes s) v) -> is_op (nodes s) c = true /\ v < c /\ c < length (nodes s).
Proof.
  intros W Hc. apply ord_In in Hc. unfold args_of in Hc. destruct (nth_error (nodes s) c) as [[|a f d]|] eqn:E; try contradiction.
  split; [eapply is_op_intro; eauto|]. split; [eapply (wf_args _ W); eauto|now apply nth_error_lt in E].
Qed.
Lemma child_depth s v c : WF s -> Deep s -> In c (ord (nodes s) v) -> depth_of (nodes s) v < depth_of (nodes s) c.
Proof.
  intros W D Hc. apply ord_In in Hc. unfold args_of in Hc. destruct (nth_error (nodes s) c) as [[|a f d]|] eqn:E; try contradiction.
  unfold depth_of at 2. rewrite E. eapply D; eauto.
Qed.

Lemma upd_ok k : forall s v, WF s -> is_op (nodes s) v = true -> length (nodes s) - v <= k ->
    match upd k s v with
    | Bad => False
    | Exc s' => WF s' /\ ext s s'
    | Done s' _ => WF s' /\ ext s s' /\ (Deep s -> forall w, In w (queue s') -> In w (queue s) \/ depth_of (nodes s) v <= depth_of (nodes s) w) /\ forall M R Q, Deep s -> Bl s M v -> Inv s M R (fun w => Q w \/ w = v) -> exists R' : nat -> Prop, (forall w, R w -> R' w) /\ Inv s' M R' Q
    end.
Proof.
  induction k as [|k IH]; intros s v W Ho Hk.
  - apply is_op_inv in Ho as [args [f [d Hn]]]. apply nth_error_lt in Hn. lia.
  - pose proof Ho as Ho'. apply is_op_inv in Ho as [args [f [d Hn]]]. cbn [EvalModel.upd]. rewrite Hn.
    destruct (all_some (map (val s) args)) as [vs|] eqn:Ha.
    2: { split; auto. split; [apply ext_refl|]. split; [auto|]. intros M R Q _ _ I. exists R. split; auto. intros w a g e Hw HM HQ HR.
         destruct (Nat.eq_dec w v) as [->|Hwv]; [rewrite Hn in Hw; injection Hw as <- <- <-; right; intros vs C; congruence|]. eapply I; eauto. intros [C|C]; auto. }
    destruct (is_frozen s v || (1 <? length args)).
    { split; [eapply add_update_WF; eauto; congruence|]. split; [now apply add_update_ext|]. split.
      { intros _ w. unfold add_update. destruct (mem v (qmap s)); auto. intros [<-|H]; auto. }
      intros M R Q _ B I. exists R. split; auto.
      intros w a g e Hw HM HQ HR.
      assert (Em : val (add_update s v) = val s /\ man (add_update s v) = man s /\ nodes (add_update s v) = nodes s) by (unfold add_update; destruct (mem v (qmap s)); auto).
      destruct Em as [Em [En Eo]]. rewrite En in HM. rewrite Eo in Hw. rewrite Em.
      destruct (Nat.eq_dec w v) as [->|Hwv].
      - left. unfold add_update. destruct (mem v (qmap s)) eqn:E; [|now left]. apply mem_In in E.
        destruct (in_dec Nat.eq_dec v (queue s)); auto. exfalso. specialize (B HM v (conj E n) eq_refl). lia.
      - destruct (I w a g e Hw HM) as [H|H]; auto. { intros [C|C]; auto. } left. apply (e_queue _ _ (add_update_ext s v W Ho')). exact H. }
    pose proof (forward_ok s v args f d vs W Hn Ha) as HF. destruct (forward_pass s v) as [s1 []|s1|]; cbn [obind]; auto.
    2: { subst s1. split; [now apply set_log_WF|apply set_log_ext]. }
    destruct HF as [x [-> Hf]].
    assert (Wl : WF (set_log s v)) by now apply set_log_WF.
    assert (W1 : WF (set_val (set_log s v) v x)) by (eapply (set_val_WF (set_log s v)); [exact Wl|exact Hn|change (val (set_log s v)) with (val s); congruence]).
    assert (E1 : ext s (set_val (set_log s v) v x)) by (eapply ext_trans; [apply set_log_ext|eapply (set_val_ext (set_log s v)); [exact Wl|exact Hn]]).
    set (s1 := set_val (set_log s v) v x) in *.
    assert (Hch : forall c, In c (ord (nodes s1) v) -> is_op (nodes s1) c = true /\ length (nodes s1) - c <= k).
    { intros c Hc. destruct (child_facts s1 v c W1 Ho' Hc) as [H1 [H2 _]]. split; auto. change (nodes s1) with (nodes s). lia. }
    pose proof (notify_list_ok k (ord (nodes s1) v) IH s1 W1 Hch) as HN.
    destruct (notify_list (upd k) (ord (nodes s1) v) s1) as [s2 []|s2|]; auto.
    + destruct HN as [W2 [E2 [F2 H2]]]. split; auto. split; [eapply ext_trans; eauto|]. split.
      { intros D w Hw. destruct (F2 (Deep_ext _ _ E1 D) w Hw) as [Hw1|[c [Hc Hd]]]; [now left|right].
        pose proof (child_depth s1 v c W1 (Deep_ext _ _ E1 D) Hc). change (nodes s1) with (nodes s) in *. lia. }
      intros M R Q D B I.
      destruct (H2 M (fun w => R w \/ w = v) Q) as [R2 [HR2 I2]].
      * eapply Deep_ext; eauto.
      * intros c Hc. destruct (child_facts s1 v c W1 Ho' Hc) as [_ [_ [Hm _]]]. pose proof (child_depth s1 v c W1 (Deep_ext _ _ E1 D) Hc) as Hd.
        intros HM b Hb Hbm. pose proof (Bl_ext _ _ _ _ E1 B) as B1. rewrite Hm in HM, Hbm. specialize (B1 HM b Hb Hbm). lia.
      * apply (Inv_set (set_log s v) M R Q v x args f d vs); auto.
      * exists R2. split; auto.
    + destruct HN as [W2 E2]. split; auto. eapply ext_trans; eauto.
Qed.

Lemma notify_ok s v : WF s ->
    match notify s v with
    | Bad => False
    | Exc s' => WF s' /\ ext s s'
    | Done s' _ => WF s' /\ ext s s' /\ (Deep s -> forall w, In w (queue s') -> In w (queue s) \/ exists c, In c (ord (nodes s) v) /\ depth_of (nodes s) c <= depth_of (nodes s) w) /\
      forall M R Q, Deep s -> (forall c, In c (ord (nodes s) v) -> Bl s M c) -> Inv s M R (fun w => Q w \/ In w (ord (nodes s) v)) ->
        exists R' : nat -> Prop, (forall w, R w -> R' w) /\ Inv s' M R' Q
    end.
Proof.
  intros W. unfold EvalModel.notify. apply notify_list_ok; auto; [intros; apply upd_ok; auto|].
  intros c Hc. destruct (child_facts0 s v c W Hc) as [H1 [H2 H3]]. split; auto. lia.
Qed.
End Inv.

(** ---- flush ---- *)
Record ext2 s s' : Prop := {
  x_nodes : nodes s' = nodes s;
  x_mgr : mgr s' = mgr s;
  x_frozen : frozen s' = frozen s;
  x_leaf : forall v, nth_error (nodes s) v = Some NLeaf -> val s' v = val s v;
  x_some : forall v, val s v <> None -> val s' v <> None
}.
Lemma ext2_refl s : ext2 s s. Proof. constructor; auto. Qed.
Lemma ext2_trans a b c : ext2 a b -> ext2 b c -> ext2 a c.
Proof. intros [] []. constructor; try congruence; auto. intros v H. rewrite x_leaf1 by (now rewrite x_nodes0). auto. Qed.
Lemma ext_ext2 a b : ext a b -> ext2 a b.
Proof. intros []. constructor; auto. Qed.

Lemma WF_pop s v : WF s -> WF (set_queue s (filter (fun x => negb (x =? v)) (queue s)) (qmap s)).
Proof.
  intros []. constructor; auto.
  - cbn. now apply NoDup_filter.
  - cbn. intros w H. apply filter_In in H as [H _]. auto.
  - intros w a g e Hw Hq. cbn in Hq. apply filter_In in Hq as [Hq _]. eapply wf_good0; eauto.
Qed.

Lemma length_remove v (l : list nat) : NoDup l -> In v l -> S (length (filter (fun x => negb (x =? v)) l)) = length l.
Proof.
  induction l as [|x l IH]; intros H Hin; [destruct Hin|]. apply NoDup_cons_iff in H as [Hx H]. cbn. destruct (Nat.eqb_spec x v) as [->|Hn]; cbn.
  - f_equal. clear IH Hin. induction l as [|y l IH]; auto. cbn. apply NoDup_cons_iff in H as [_ H]. destruct (Nat.eqb_spec y v) as [->|]; cbn.
    + exfalso. apply Hx. now left.
    + f_equal. apply IH; auto. intros C. apply Hx. now right.
  - destruct Hin as [->|Hin]; [congruence|]. now rewrite IH.
Qed.

Lemma bounded_length (l : list nat) n : NoDup l -> (forall v, In v l -> v < n) -> length l <= n.
Proof. intros H B. rewrite <- (seq_length n 0). apply NoDup_incl_length; auto. intros v Hv. apply in_seq. specialize (B v Hv). lia. Qed.
Lemma is_op_lt ns v : @is_op V ns v = true -> v < length ns.
Proof. intros H. apply is_op_inv in H as [? [? [? H]]]. now apply nth_error_lt in H. Qed.
Lemma qmap_len s : WF s -> length (qmap s) <= length (nodes s).
Proof. intros W. apply bounded_length; [apply (wf_map _ W)|]. intros v H. apply is_op_lt. now apply (wf_ops _ W). Qed.
Lemma queue_len s : WF s -> length (queue s) <= length (qmap s).
Proof. intros W. apply NoDup_incl_length; [apply (wf_queue _ W)|]. intros v. apply (wf_sub _ W). Qed.

(** no node of manager [m] waits, and none is blocked *)
Definition settled s m : Prop := (forall v, In v (queue s) -> man s v <> m) /\ (forall v, In v (qmap s) -> man s v <> m).

(** how often something can still be taken from a queue before everything is done *)
Definition work s : nat := length (queue s) + (length (nodes s) - length (qmap s)).

Lemma flush_ok m k : forall s, WF s -> work s < k ->
    match flush k s m with
    | Bad => False
    | Exc s' => WF s' /\ ext2 s s' /\ work s' < work s
    | Done s' _ => WF s' /\ ext2 s s' /\ settled s' m /\ (forall v, man s v <> m -> (blocked s' v <-> blocked s v)) /\
        forall (M R : nat -> Prop), Deep s -> (M m -> forall b w, blocked s b -> man s b = m -> In w (queue s) -> man s w = m -> depth_of (nodes s) b <= depth_of (nodes s) w) ->
          Inv s M R (fun _ => False) -> exists R' : nat -> Prop, (forall w, R w -> R' w) /\ Inv s' M R' (fun _ => False)
    end.
Proof.
  induction k as [|k IH]; intros s W Hk; [lia|]. cbn [EvalModel.flush].
  set (q := filter (fun v => man s v =? m) (queue s)). pose proof (Htop (nodes s) q) as Ht. destruct (top (nodes s) q) as [v|] eqn:Etop.
  2: { assert (Hq : forall v, In v (queue s) -> man s v <> m).
       { intros v Hv C. assert (X : In v q) by (apply filter_In; split; auto; now apply Nat.eqb_eq). rewrite Ht in X. destruct X. }
       split.
       { destruct W. constructor; auto; cbn.
         - now apply NoDup_filter.
         - intros v Hv. apply filter_In. split; auto. pose proof (Hq v Hv) as X. apply Nat.eqb_neq in X. change (man s v =? m) with (man s v =? m). now rewrite X.
         - intros v Hv. apply filter_In in Hv as [Hv _]. auto. }
       split; [constructor; auto|]. split.
       { split; [exact Hq|]. cbn [qmap set_queue]. intros v Hv. apply filter_In in Hv as [_ Hv]. apply negb_true_iff, Nat.eqb_neq in Hv. exact Hv. }
       split.
       { intros v Hv. unfold blocked; cbn [qmap queue set_queue]. rewrite filter_In. apply Nat.eqb_neq in Hv. rewrite Hv. cbn. tauto. }
       intros M R _ _ I. exists R. split; auto. }
  destruct Ht as [Hin Hmin]. apply filter_In in Hin as [Hin Hm]. apply Nat.eqb_eq in Hm.
  set (s0 := set_queue s (filter (fun x => negb (x =? v)) (queue s)) (qmap s)).
  assert (W0 : WF s0) by now apply WF_pop.
  pose proof (wf_ops _ W v (wf_sub _ W v Hin)) as Ho. pose proof Ho as Ho'. apply is_op_inv in Ho as [args [f [d Hn]]].
  destruct (all_some (map (val s) args)) as [vs|] eqn:Ha; [|exfalso; eapply (wf_good _ W); eauto].
  pose proof (forward_ok s0 v args f d vs W0 Hn Ha) as HF. destruct (forward_pass s0 v) as [s1 []|s1|]; cbn [obind]; auto.
  2: { subst s1. split; [now apply set_log_WF|]. split; [constructor; auto|]. unfold work; cbn [queue qmap nodes set_log s0 set_queue]. pose proof (length_remove v (queue s) (wf_queue _ W) Hin). lia. }
  destruct HF as [x [-> Hf]].
  assert (W1 : WF (set_val (set_log s0 v) v x)) by (eapply (set_val_WF (set_log s0 v)); [now apply set_log_WF|exact Hn|change (val (set_log s0 v)) with (val s); congruence]).
  assert (E1 : ext s0 (set_val (set_log s0 v) v x)) by (eapply ext_trans; [apply set_log_ext|eapply (set_val_ext (set_log s0 v)); [now apply set_log_WF|exact Hn]]).
  set (s1 := set_val (set_log s0 v) v x) in *.
  assert (X0 : ext2 s s1) by (eapply ext2_trans; [|apply ext_ext2; exact E1]; constructor; auto).
  pose proof (notify_ok s1 v W1) as HN. destruct (notify s1 v) as [s2 []|s2|]; cbn [obind]; auto.
  2: { destruct HN as [W2 E2]. split; auto. split; [eapply ext2_trans; [exact X0|now apply ext_ext2]|].
       pose proof (e_len _ _ E2) as Hlen. pose proof (length_remove v (queue s) (wf_queue _ W) Hin) as Hrem. pose proof (qmap_len s2 W2). pose proof (qmap_len s W).
       unfold work. rewrite (e_nodes _ _ E2) in *. change (nodes s1) with (nodes s) in *. change (qmap s1) with (qmap s) in *.
       change (queue s1) with (filter (fun x => negb (x =? v)) (queue s)) in Hlen. lia. }
  destruct HN as [W2 [E2 [F2 H2]]]. pose proof (e_len _ _ E2) as Hlen. pose proof (length_remove v (queue s) (wf_queue _ W) Hin) as Hrem.
  assert (Hk2' : work s2 < work s).
  { unfold work. pose proof (qmap_len s2 W2). pose proof (qmap_len s W) as Hql. rewrite (e_nodes _ _ E2) in *. change (nodes s1) with (nodes s) in *. change (qmap s1) with (qmap s) in *.
    change (queue s1) with (filter (fun x => negb (x =? v)) (queue s)) in Hlen. lia. }
  assert (Hk2 : work s2 < k) by lia.
  pose proof (IH s2 W2 Hk2) as H3. destruct (flush k s2 m) as [s3 []|s3|]; auto.
  2: { destruct H3 as [W3 [X3 K3]]. split; auto. split; [|lia]. eapply ext2_trans; [exact X0|]. eapply ext2_trans; [apply ext_ext2; exact E2|exact X3]. }
  destruct H3 as [W3 [X3 [S3 [B3 H3]]]]. split; auto. split; [eapply ext2_trans; [exact X0|]; eapply ext2_trans; [apply ext_ext2; exact E2|exact X3]|]. split; auto.
  assert (Hman : forall w, man s2 w = man s w) by (intros w; rewrite (ext_man _ _ _ E2); reflexivity).
  assert (HB : forall b, blocked s2 b <-> blocked s b \/ b = v).
  { intros b. rewrite (e_blocked _ _ E2). unfold blocked, s1, s0; cbn [qmap queue set_val set_log set_queue]. rewrite filter_In. split.
    - intros [H H']. destruct (Nat.eq_dec b v); auto. left. split; auto. intros C. apply H'. split; auto. apply negb_true_iff. now apply Nat.eqb_neq.
    - intros [[H H']| ->]; [split; auto; tauto|]. split; [now apply (wf_sub _ W)|]. intros [_ C]. rewrite Nat.eqb_refl in C. discriminate. }
  split.
  { intros w Hw. rewrite B3 by (rewrite Hman; auto). rewrite HB. split; [intros [H|H]; [auto|subst; contradiction]|auto]. }
  intros M R D HBl I.
  assert (D1 : Deep s1) by exact D.
  assert (I1 : Inv s1 M (fun w => R w \/ w = v) (fun w => False \/ In w (ord (nodes s1) v))).
  { apply (Inv_set (set_log s0 v) M R (fun _ => False) v x args f d vs); try exact Hn; try exact Ha; try exact Hf; [now apply set_log_WF|].
    intros w a g e Hw HM HQ HR. destruct (I w a g e Hw HM (fun X => X) HR) as [H|H]; [|now right]. left.
    unfold s0; cbn [queue set_log set_queue]. apply filter_In. split; auto. apply negb_true_iff, Nat.eqb_neq. intros ->. apply HQ. now right. }
  assert (Hb1 : forall b, M m -> blocked s1 b -> man s b = m -> depth_of (nodes s) b <= depth_of (nodes s) v).
  { intros b HM Hb Hbm. apply (e_blocked _ _ E2) in Hb. apply HB in Hb as [Hb| ->]; auto. }
  assert (HBc : forall c, In c (ord (nodes s1) v) -> Bl s1 M c).
  { intros c Hc HM b Hb Hbm. destruct (child_facts s1 v c W1 Ho' Hc) as [_ [_ [Hcm _]]]. pose proof (child_depth s1 v c W1 D1 Hc) as Hd.
    change (man s1 c) with (man s c) in *. change (man s1 v) with (man s v) in *. rewrite Hcm, Hm in *. change (man s1 b) with (man s b) in Hbm. specialize (Hb1 b HM Hb Hbm).
    change (nodes s1) with (nodes s) in *. lia. }
  destruct (H2 M _ (fun _ => False) D1 HBc I1) as [R2 [HR2 I2]].
  destruct (H3 M R2 (Deep_ext _ _ E2 D1)) as [R3 [HR3 I3]].
  { intros HM b w Hb Hbm Hw Hwm. rewrite Hman in Hbm, Hwm. apply (e_blocked _ _ E2) in Hb. specialize (Hb1 b HM Hb Hbm). rewrite (e_nodes _ _ E2). change (nodes s1) with (nodes s).
    (* every queued node of m is at least as deep as v *)
    assert (Hqd : depth_of (nodes s) v <= depth_of (nodes s) w); [|lia].
    destruct (F2 D1 w Hw) as [Hw1|[c [Hc Hd]]].
    - unfold s1, s0 in Hw1; cbn [queue set_val set_log set_queue] in Hw1. apply filter_In in Hw1 as [Hw1 _]. apply Hmin. unfold q. apply filter_In. split; auto. now apply Nat.eqb_eq.
    - pose proof (child_depth s1 v c W1 D1 Hc). change (nodes s1) with (nodes s) in *. lia. }
  { exact I2. }
  exists R3. split; auto.
Qed.

(** ---- steps ---- *)
Lemma val_lt s v : WF s -> val s v <> None -> v < length (nodes s).
Proof.
  intros W H. unfold val in H. destruct (nth_error (vals s) v) eqn:E; [|congruence]. apply nth_error_lt in E. now rewrite (wf_vals _ W) in E.
Qed.
Lemma all_some_map_lt s l : WF s -> all_some (map (val s) l) <> None -> forall a, In a l -> a < length (nodes s).
Proof.
  intros W H a Ha. apply val_lt; auto. intros C. apply H. apply all_some_None. apply in_map_iff. exists a. auto.
Qed.

Lemma set_leaf_WF s x y : WF s -> nth_error (nodes s) x = Some NLeaf -> WF (set_val s x y) /\ (forall v, val s v <> None -> val (set_val s x y) v <> None).
Proof.
  intros W Hn. assert (Hl : x < length (vals s)) by (rewrite (wf_vals _ W); now apply nth_error_lt in Hn).
  assert (Hs : forall v, val s v <> None -> val (set_val s x y) v <> None) by (intros v Hv; rewrite val_set by auto; destruct (v =? x); [discriminate|auto]).
  split; auto. destruct W. constructor; auto.
  - cbn. now rewrite length_set_nth.
  - intros w a g e Hw Hx. rewrite val_set by auto. pose proof (map_val_none _ _ _ Hs Hx) as Hy. cbn [nodes set_val] in Hw.
    destruct (Nat.eqb_spec w x) as [->|]; [congruence|eauto].
  - intros w a g e Hw Hq. eapply map_val_some; [exact Hs|]. eapply wf_good0; eauto.
Qed.

Lemma Inv_set_leaf s M R Q x y : WF s -> nth_error (nodes s) x = Some NLeaf -> Inv s M R Q ->
  Inv (set_val s x y) M (fun w => R w \/ w = x) (fun w => Q w \/ In w (ord (nodes s) x)).
Proof.
  intros W Hn I w a g e Hw HM HQ HR. cbn [nodes set_val] in Hw. change (man (set_val s x y) w) with (man s w) in HM. change (queue (set_val s x y)) with (queue s).
  assert (Hl : x < length (vals s)) by (rewrite (wf_vals _ W); now apply nth_error_lt in Hn).
  assert (Hva : ~ In x a). { intros C. apply HQ. right. apply ord_In. unfold args_of. now rewrite Hw. }
  assert (Em : map (val (set_val s x y)) a = map (val s) a).
  { apply map_ext_in. intros b Hb. rewrite val_set by auto. destruct (Nat.eqb_spec b x) as [->|]; [contradiction|auto]. }
  rewrite Em. destruct (I w a g e Hw HM) as [H|H].
  - intros C. apply HQ. now left.
  - destruct HR as [b [Hb [Rb| ->]]]; [eauto|contradiction].
  - now left.
  - right. intros vs Hvs. destruct (H vs Hvs) as [H1 [z [H2 H3]]]. split; [now left|]. exists z. split; auto.
    rewrite val_set by auto. destruct (Nat.eqb_spec w x) as [->|]; [congruence|auto].
Qed.

(** appending a node *)
Section App.
Context (s : estate V) (n : enode V) (o : option V) (g : nat -> nat) (m : nat).
Definition appended : estate V := mkE (nodes s ++ [n]) (vals s ++ [o]) (map g (mgr s) ++ [m]) (frozen s) (queue s) (qmap s) (elog s).
Context (W : WF s).

Lemma app_old v : v < length (nodes s) -> nth_error (nodes appended) v = nth_error (nodes s) v.
Proof. intros H. cbn. now rewrite nth_error_app1. Qed.
Lemma app_new : nth_error (nodes appended) (length (nodes s)) = Some n.
Proof. cbn. rewrite nth_error_app2, Nat.sub_diag by lia. reflexivity. Qed.
Lemma app_val v : v < length (nodes s) -> val appended v = val s v.
Proof. intros H. unfold val; cbn. rewrite nth_error_app1; auto. now rewrite (wf_vals _ W). Qed.
Lemma app_val_new : val appended (length (nodes s)) = o.
Proof. unfold val; cbn. rewrite nth_error_app2, (wf_vals _ W), Nat.sub_diag by (rewrite (wf_vals _ W); lia). cbn. now destruct o. Qed.
Lemma app_man v : v < length (nodes s) -> man appended v = g (man s v).
Proof.
  intros H. unfold man; cbn. rewrite app_nth1 by (rewrite map_length, (wf_mgr _ W); auto).
  rewrite (nth_indep _ 0 (g 0)) by (rewrite map_length, (wf_mgr _ W); auto). apply map_nth.
Qed.
Lemma app_man_new : man appended (length (nodes s)) = m.
Proof. unfold man; cbn. rewrite app_nth2; rewrite map_length, (wf_mgr _ W); [|lia]. now rewrite Nat.sub_diag. Qed.
Lemma app_split v x : nth_error (nodes appended) v = Some x -> (v < length (nodes s) /\ nth_error (nodes s) v = Some x) \/ (v = length (nodes s) /\ x = n).
Proof.
  intros H. destruct (Nat.lt_ge_cases v (length (nodes s))) as [Hl|Hl]; [left; split; auto; now rewrite app_old in H|].
  right. assert (Hv : v < length (nodes appended)) by now apply nth_error_lt in H. cbn in Hv. rewrite app_length in Hv. cbn in Hv. assert (v = length (nodes s)) as -> by lia.
  rewrite app_new in H. injection H as <-. auto.
Qed.
Lemma app_is_op v : v < length (nodes s) -> is_op (nodes appended) v = is_op (nodes s) v.
Proof. intros H. unfold is_op. now rewrite app_old. Qed.
Lemma app_map_val args : (forall a, In a args -> a < length (nodes s)) -> map (val appended) args = map (val s) args.
Proof. intros H. apply map_ext_in. intros a Ha. apply app_val. auto. Qed.
Lemma old_args v args f d : nth_error (nodes s) v = Some (NOp args f d) -> forall a, In a args -> a < length (nodes s).
Proof. intros H a Ha. pose proof (proj2 (wf_args _ W _ _ _ _ H) a Ha). apply nth_error_lt in H. lia. Qed.

Lemma app_WF : match n with
    | NLeaf => True
    | NOp args f d => args <> [] /\ (forall a, In a args -> a < length (nodes s)) /\
        (forall a, In a args -> is_op (nodes s) a = true -> g (man s a) = m) /\ (all_some (map (val s) args) = None -> o = None)
    end -> WF appended.
Proof.
  intros Hnew. constructor.
  - cbn. rewrite !app_length, (wf_vals _ W). reflexivity.
  - cbn. rewrite !app_length, map_length, (wf_mgr _ W). reflexivity.
  - intros v args f d H. apply app_split in H as [[_ H]|[-> H]]; [eapply (wf_args _ W); eauto|]. rewrite <- H in Hnew. tauto.
  - intros v args f d a H Ha Hop. apply app_split in H as [[Hl H]|[-> H]].
    + pose proof (old_args _ _ _ _ H a Ha). rewrite !app_man by auto. rewrite app_is_op in Hop by auto. now rewrite (wf_man _ W _ _ _ _ _ H Ha Hop).
    + rewrite <- H in Hnew. destruct Hnew as [_ [H1 [H2 _]]]. rewrite app_man, app_man_new by auto. apply H2; auto. rewrite app_is_op in Hop; auto.
  - apply (wf_queue _ W).
  - apply (wf_map _ W).
  - apply (wf_sub _ W).
  - intros v H. pose proof (wf_ops _ W v H) as X. rewrite app_is_op; auto. now apply is_op_lt.
  - intros v args f d H Hx. apply app_split in H as [[Hl H]|[-> H]].
    + rewrite app_val by auto. rewrite app_map_val in Hx by (eapply old_args; eauto). eapply (wf_none _ W); eauto.
    + rewrite <- H in Hnew. destruct Hnew as [_ [H1 [_ H3]]]. rewrite app_val_new. rewrite app_map_val in Hx; auto.
  - intros v args f d H Hq. assert (Hlt : v < length (nodes s)) by (apply is_op_lt, (wf_ops _ W), (wf_sub _ W), Hq).
    apply app_split in H as [[Hl H]|[-> H]]; [|cbn in Hq; lia]. rewrite app_map_val by (eapply old_args; eauto). eapply (wf_good _ W); eauto.
Qed.

Lemma app_depth v : v < length (nodes s) -> depth_of (nodes appended) v = depth_of (nodes s) v.
Proof. intros H. unfold depth_of. now rewrite app_old. Qed.

Lemma app_Deep : Deep s -> match n with NLeaf => True | NOp args f d => (forall a, In a args -> a < length (nodes s)) /\ forall a, In a args -> depth_of (nodes s) a < d end -> Deep appended.
Proof.
  intros D Hnew v args f d a H Ha. apply app_split in H as [[Hl H]|[-> H]].
  - rewrite app_depth by (eapply old_args; eauto). eapply D; eauto.
  - rewrite <- H in Hnew. rewrite app_depth by (apply Hnew; auto). now apply Hnew.
Qed.

Lemma app_Inv : Inv s (fun _ => True) (fun _ => True) (fun _ => False) -> Inv appended (fun _ => True) (fun _ => True) (fun w => False \/ w = length (nodes s)).
Proof.
  intros I v args f d H HM HQ HR. apply app_split in H as [[Hl H]|[-> H]]; [|exfalso; apply HQ; now right].
  rewrite app_map_val by (eapply old_args; eauto). rewrite app_val by auto. change (queue appended) with (queue s). eapply I; eauto.
Qed.
End App.

Lemma join_spec s args : exists g, fst (join s args) = map g (mgr s) /\ forall a, In a args -> is_op (nodes s) a = true -> g (man s a) = snd (join s args).
Proof.
  unfold join. destruct (filter (is_op (nodes s)) args) as [|a rest] eqn:E.
  - exists (fun x => x). cbn. split; [now rewrite map_id|]. intros b Hb Ho. assert (X : In b (filter (is_op (nodes s)) args)) by (apply filter_In; auto). rewrite E in X. destruct X.
  - eexists. cbn. split; [reflexivity|]. cbn. intros b Hb Ho. assert (X : In b (filter (is_op (nodes s)) args)) by (apply filter_In; auto). rewrite E in X.
    destruct X as [->|X]; [now destruct (mem _ _)|]. replace (mem (man s b) (map (man s) rest)) with true; auto. symmetry. apply mem_In. apply in_map_iff. eauto.
Qed.

Lemma list_max_le l x : In x l -> x <= list_max l.
Proof. intros H. pose proof (proj1 (list_max_le l (list_max l)) (Nat.le_refl _)) as F. rewrite Forall_forall in F. auto. Qed.

(** regular histories *)
Definition Good s : Prop := WF s /\ Deep s /\ (forall v, ~ blocked s v) /\ Inv s (fun _ => True) (fun _ => True) (fun _ => False).

Lemma Inv_all s (R : nat -> Prop) : (forall v, True -> R v) -> Inv s (fun _ => True) R (fun _ => False) -> Inv s (fun _ => True) (fun _ => True) (fun _ => False).
Proof.
  intros H I v args f d Hn HM HQ [a [Ha _]]. destruct (I v args f d Hn HM HQ) as [X|X]; [eauto|auto|]. right. intros vs Hvs. destruct (X vs Hvs). auto.
Qed.

Lemma flush_all_ok s v : WF s ->
    match flush_all compat ord top s v with
    | Bad => False
    | Exc s' => WF s' /\ ext2 s s' /\ work s' < work s
    | Done s' _ => WF s' /\ ext2 s s' /\ settled s' (man s v) /\ (forall w, man s w <> man s v -> (blocked s' w <-> blocked s w)) /\
        forall (M R : nat -> Prop), Deep s -> (M (man s v) -> forall b w, blocked s b -> man s b = man s v -> In w (queue s) -> man s w = man s v -> depth_of (nodes s) b <= depth_of (nodes s) w) ->
          Inv s M R (fun _ => False) -> exists R' : nat -> Prop, (forall w, R w -> R' w) /\ Inv s' M R' (fun _ => False)
    end.
Proof.
  intros W. unfold flush_all. apply flush_ok; auto. unfold work. pose proof (qmap_len s W). pose proof (queue_len s W). lia.
Qed.

Lemma flush_all_Good s v s' u : Good s -> flush_all compat ord top s v = Done s' u -> Good s' /\ ext2 s s' /\ settled s' (man s v).
Proof.
  intros [W [D [B I]]] E. pose proof (flush_all_ok s v W) as H. rewrite E in H. destruct H as [W' [X [S [Bk H]]]]. split; auto.
  split; auto. split; [|split].
  - intros w a f d b Hw Hb. rewrite (x_nodes _ _ X) in *. eapply D; eauto.
  - intros w Hw. destruct (Nat.eq_dec (man s w) (man s v)) as [Hm|Hm].
    + destruct S as [_ S]. destruct Hw as [Hw _]. apply (S w Hw). unfold man in *. now rewrite (x_mgr _ _ X).
    + apply Bk in Hw; auto. now apply B in Hw.
  - destruct (H (fun _ => True) (fun _ => True) D) as [R' [HR I']]; auto; [|eapply Inv_all; eauto]. intros _ b w Hb. now apply B in Hb.
Qed.

Lemma step_Good s o s' r : Good s -> plain o -> step compat ord top s o = Done s' r -> Good s'.
Proof.
  intros HG Hp E. pose proof HG as [W [D [B I]]]. destruct o as [x|args f|x y b|v|v|v b|v]; cbn [step] in E; try contradiction.
  - injection E as <- _. assert (Em : mgr s = map (fun x => x) (mgr s)) by now rewrite map_id. rewrite Em.
    change (Good (appended s NLeaf x (fun x => x) (length (nodes s)))).
    split; [now apply app_WF|]. split; [now apply app_Deep|]. split; [exact B|].
    intros v args f d Hv _ _ HR. apply (app_Inv s NLeaf x (fun x => x) (length (nodes s)) W I v args f d Hv Logic.I); auto.
    intros [[]| ->]. rewrite app_new in Hv. discriminate.
  - destruct (length args =? 0) eqn:El; [discriminate|]. destruct (forallb (fun a => a <? length (nodes s)) args) eqn:Ef; [|discriminate]. cbn [negb orb] in E.
    apply Nat.eqb_neq in El. rewrite forallb_forall in Ef. assert (Hlt : forall a, In a args -> a < length (nodes s)) by (intros a Ha; apply Nat.ltb_lt, Ef, Ha).
    destruct (join_spec s args) as [g [Hg1 Hg2]]. destruct (join s args) as [mg m] eqn:Ej. cbn [fst snd] in *. subst mg.
    set (n := NOp args f (new_depth (nodes s) args)) in *.
    change (mkE (nodes s ++ [n]) (vals s ++ [None]) (map g (mgr s) ++ [m]) (frozen s) (queue s) (qmap s) (elog s)) with (appended s n None g m) in E.
    assert (W1 : WF (appended s n None g m)). { apply app_WF; auto. cbn. split; [destruct args; [cbn in El; lia|discriminate]|]. split; auto. }
    assert (D1 : Deep (appended s n None g m)).
    { apply app_Deep; auto. cbn. split; auto. intros a Ha. unfold new_depth. pose proof (list_max_le (map (depth_of (nodes s)) args) (depth_of (nodes s) a) (in_map _ _ _ Ha)). lia. }
    assert (B1 : forall v, ~ blocked (appended s n None g m) v) by exact B.
    pose proof (upd_ok (S (length (nodes s))) (appended s n None g m) (length (nodes s)) W1) as HU.
    destruct (EvalModel.upd compat ord (S (length (nodes s))) (appended s n None g m) (length (nodes s))) as [s2 []|s2|]; try discriminate. injection E as <- <-.
    destruct HU as [W2 [E2 [_ H2]]]; [eapply is_op_intro; apply app_new|cbn; rewrite app_length; cbn; lia|].
    split; auto. split; [eapply Deep_ext; eauto|]. split; [intros v Hv; apply (e_blocked _ _ E2) in Hv; now apply B1 in Hv|].
    destruct (H2 (fun _ => True) (fun _ => True) (fun _ => False) D1) as [R' [HR I2]].
    + intros _ b Hb. now apply B1 in Hb.
    + now apply app_Inv.
    + eapply Inv_all; eauto.
  - cbn in Hp. subst b. destruct (nth_error (nodes s) x) as [[|]|] eqn:Hn; try discriminate.
    destruct (set_leaf_WF s x y W Hn) as [W1 _]. pose proof (notify_ok (set_val s x y) x W1) as HN.
    destruct (EvalModel.notify compat ord (set_val s x y) x) as [s2 []|s2|]; try discriminate. cbn [obind] in E. injection E as <- <-.
    destruct HN as [W2 [E2 [_ H2]]]. split; auto. split; [eapply Deep_ext; [exact E2|exact D]|]. split; [intros v Hv; apply (e_blocked _ _ E2) in Hv; now apply B in Hv|].
    destruct (H2 (fun _ => True) (fun w => True \/ w = x) (fun _ => False)) as [R' [HR I2]].
    + exact D.
    + intros c _ _ b Hb. now apply B in Hb.
    + exact (Inv_set_leaf s (fun _ => True) (fun _ => True) (fun _ => False) x y W Hn I).
    + eapply Inv_all; [|exact I2]. intros v _. apply HR. now left.
  - destruct (nth_error (nodes s) v) as [[|args f d]|] eqn:Hn; try discriminate; [injection E as <- _; auto|].
    destruct (is_frozen s v); [injection E as <- _; auto|].
    destruct (flush_all compat ord top s v) as [s2 u|s2|] eqn:Ef; try discriminate. cbn in E. injection E as <- _. eapply flush_all_Good; eauto.
  - destruct (nth_error (nodes s) v) as [[|args f d]|] eqn:Hn; try discriminate; [injection E as <- _; auto|].
    destruct (flush_all compat ord top s v) as [s2 u|s2|] eqn:Ef; try discriminate. cbn in E. injection E as <- _. eapply flush_all_Good; eauto.
  - destruct (nth_error (nodes s) v) as [[|args f d]|] eqn:Hn; try discriminate.
    assert (X : exists s2, (if b then flush_all compat ord top s v else Done s tt) = Done s2 tt /\ Good s2 /\
        s' = mkE (nodes s2) (vals s2) (mgr s2) (if b then man s2 v :: frozen s2 else filter (fun m : nat => negb (m =? man s2 v)) (frozen s2)) (queue s2) (qmap s2) (elog s2)).
    { destruct b.
      - destruct (flush_all compat ord top s v) as [s2 []|s2|] eqn:Ef; try discriminate. cbn in E. injection E as <- _. exists s2. split; auto. split; auto. eapply flush_all_Good; eauto.
      - cbn in E. injection E as <- _. exists s. auto. }
    destruct X as [s2 [_ [[W2 [D2 [B2 I2]]] ->]]]. split; [destruct W2; constructor; auto|]. split; [exact D2|]. split; [exact B2|exact I2].
Qed.

Lemma einit_Good : Good einit.
Proof.
  split. { constructor; try reflexivity; try apply NoDup_nil; try (intros v; destruct v; discriminate); intros v []. }
  split; [intros v; destruct v; discriminate|]. split; [intros v [[] _]|]. intros v; destruct v; discriminate.
Qed.

Lemma run_Good ops : forall s s', Good s -> Forall plain ops -> run compat ord top s ops = Done s' tt -> Good s'.
Proof.
  induction ops as [|o ops IH]; intros s s' HG HP E; cbn [run] in E; [injection E as <-; auto|].
  apply Forall_cons_iff in HP as [Hp HP]. destruct (step compat ord top s o) as [s1 r|s1|] eqn:Es; try discriminate. cbn [obind] in E.
  eapply IH; [|exact HP|exact E]. eapply step_Good; eauto.
Qed.

(** ---- what a consistent state means ---- *)
Lemma Inv_denotes s (R : nat -> Prop) m : WF s -> Inv s (fun x => x = m) R (fun _ => False) -> (forall w, In w (queue s) -> man s w <> m) ->
  forall v, v < length (nodes s) -> (is_op (nodes s) v = true -> man s v = m) -> (forall x, leaf s x -> upstream s x v -> R x) ->
    denotes s v (val s v) /\ (val s v <> None -> R v).
Proof.
  intros W I HQ v. induction v as [v IH] using lt_wf_ind. intros Hlt Hm HL.
  destruct (nth_error (nodes s) v) as [[|args f d]|] eqn:Hn; [| |apply nth_error_None in Hn; lia].
  - split; [now constructor|]. intros _. apply HL; [exact Hn|constructor].
  - pose proof (wf_args _ W _ _ _ _ Hn) as [Hne Ha]. specialize (Hm (is_op_intro _ _ _ _ _ Hn)).
    assert (HA : forall a, In a args -> denotes s a (val s a) /\ (val s a <> None -> R a)).
    { intros a Hin. apply IH; auto; [specialize (Ha a Hin); lia| |].
      - intros Ho. rewrite (wf_man _ W _ _ _ _ _ Hn Hin Ho). exact Hm.
      - intros x Hx Hu. apply HL; auto. eapply up_step; [exists d; exact Hn|exact Hin|exact Hu]. }
    assert (HF : Forall2 (denotes s) args (map (val s) args)).
    { clear - HA. induction args as [|a l IHl]; cbn; constructor; [apply HA; now left|apply IHl; intros; apply HA; now right]. }
    destruct (all_some (map (val s) args)) as [vs|] eqn:E.
    + destruct args as [|a0 rest]; [congruence|]. assert (Hv0 : val s a0 <> None) by (intros C; cbn in E; rewrite C in E; discriminate).
      destruct (I v _ f d Hn Hm (fun X => X)) as [C|C].
      * exists a0. split; [now left|]. apply HA; auto. now left.
      * exfalso. apply (HQ v); auto.
      * destruct (C vs E) as [HR [x [Hf Hx]]]. split; auto. rewrite Hx. eapply den_op; [exists d; exact Hn|exact HF|exact E|exact Hf].
    + rewrite (wf_none _ W _ _ _ _ Hn E). split; [|congruence]. eapply den_undef; [exists d; exact Hn|exact HF|now apply all_some_None].
Qed.

Lemma denotes_ext s s' : nodes s' = nodes s -> (forall v, leaf s v -> val s' v = val s v) -> forall v, WF s -> forall r, denotes s' v r -> denotes s v r.
Proof.
  intros En Hl v W. induction v as [v IH] using lt_wf_ind. intros r H. inversion H as [w Hw|w args f os vs x [d Hn] HF Ha Hf|w args f os [d Hn] HF Hi]; subst.
  - unfold leaf in Hw. rewrite En in Hw. rewrite Hl by exact Hw. now constructor.
  - rewrite En in Hn. eapply den_op; [exists d; exact Hn| |exact Ha|exact Hf].
    pose proof (proj2 (wf_args _ W _ _ _ _ Hn)) as Hlt. clear - IH HF Hlt. induction HF; constructor; auto. { apply IH; auto. apply Hlt. now left. } apply IHHF. intros; apply Hlt; now right.
  - rewrite En in Hn. eapply den_undef; [exists d; exact Hn| |exact Hi].
    pose proof (proj2 (wf_args _ W _ _ _ _ Hn)) as Hlt. clear - IH HF Hlt. induction HF; constructor; auto. { apply IH; auto. apply Hlt. now left. } apply IHHF. intros; apply Hlt; now right.
Qed.

(** ---- all histories ---- *)
Lemma step_WF s o : WF s -> callable s o ->
  match step compat ord top s o with Bad => False | Done s' _ => WF s' | Exc s' => WF s' end /\
  (no_clone o -> Deep s -> match step compat ord top s o with Bad => False | Done s' _ => Deep s' | Exc s' => Deep s' end).
Proof.
  intros W Hc.
  assert (HD : forall s1 s2, nodes s2 = nodes s1 -> Deep s1 -> Deep s2) by (intros s1 s2 En D w a f d b; rewrite En; apply D).
  destruct o as [x|args f|x y b|v|v|v b|v]; cbn [step callable] in *.
  - assert (Em : mgr s = map (fun x => x) (mgr s)) by now rewrite map_id. rewrite Em.
    change (WF (appended s NLeaf x (fun x => x) (length (nodes s))) /\ (True -> Deep s -> Deep (appended s NLeaf x (fun x => x) (length (nodes s))))).
    split; [now apply app_WF|]. intros _ D. now apply app_Deep.
  - destruct Hc as [Hne Hlt]. destruct (length args =? 0) eqn:El; [apply Nat.eqb_eq in El; destruct args; [congruence|discriminate]|].
    assert (Ef : forallb (fun a => a <? length (nodes s)) args = true) by (apply forallb_forall; intros a Ha; apply Nat.ltb_lt; auto). rewrite Ef. cbn [negb orb].
    destruct (join_spec s args) as [g [Hg1 Hg2]]. destruct (join s args) as [mg m] eqn:Ej. cbn [fst snd] in *. subst mg.
    set (n := NOp args f (new_depth (nodes s) args)) in *.
    change (mkE (nodes s ++ [n]) (vals s ++ [None]) (map g (mgr s) ++ [m]) (frozen s) (queue s) (qmap s) (elog s)) with (appended s n None g m).
    assert (W1 : WF (appended s n None g m)) by (apply app_WF; auto; cbn; auto).
    assert (D1 : Deep s -> Deep (appended s n None g m)).
    { intros D. apply app_Deep; auto. cbn. split; auto. intros a Ha. unfold new_depth. pose proof (list_max_le (map (depth_of (nodes s)) args) (depth_of (nodes s) a) (in_map _ _ _ Ha)). lia. }
    assert (Wx : forall l, WF (mkE (nodes s) (vals s) (map g (mgr s)) (frozen s) (queue s) (qmap s) l)).
    { intros l. pose proof W as W'. destruct W. constructor; auto.
      - cbn. now rewrite map_length.
      - intros v a h d b Hv Hb Ho. cbn [nodes] in *. unfold man; cbn [mgr].
        assert (Hm : forall w, w < length (nodes s) -> nth w (map g (mgr s)) 0 = g (man s w)).
        { intros w Hw. rewrite (nth_indep _ 0 (g 0)) by (rewrite map_length, wf_mgr0; auto). apply map_nth. }
        pose proof (old_args s W' _ _ _ _ Hv b Hb). rewrite !Hm; auto; [|now apply nth_error_lt in Hv]. now rewrite (wf_man0 _ _ _ _ _ Hv Hb Ho). }
    pose proof (upd_ok (S (length (nodes s))) (appended s n None g m) (length (nodes s)) W1) as HU.
    destruct (EvalModel.upd compat ord (S (length (nodes s))) (appended s n None g m) (length (nodes s))) as [s2 []|s2|].
    + destruct HU as [W2 [E2 _]]; [eapply is_op_intro; apply app_new|cbn; rewrite app_length; cbn; lia|]. split; auto. intros _ D. eapply Deep_ext; eauto.
    + split; [apply Wx|]. intros _ D. exact D.
    + destruct HU; [eapply is_op_intro; apply app_new|cbn; rewrite app_length; cbn; lia].
  - unfold leaf in Hc. rewrite Hc. destruct (set_leaf_WF s x y W Hc) as [W1 _]. destruct b; [|split; [auto|intros _ D; exact D]].
    pose proof (notify_ok (set_val s x y) x W1) as HN. destruct (EvalModel.notify compat ord (set_val s x y) x) as [s2 []|s2|]; cbn [obind]; [| |split; auto].
    + destruct HN as [W2 [E2 _]]. split; auto. intros _ D. eapply Deep_ext; [exact E2|exact D].
    + destruct HN as [W2 E2]. split; auto. intros _ D. eapply Deep_ext; [exact E2|exact D].
  - destruct (nth_error (nodes s) v) as [[|args f d]|] eqn:Hn; [split; auto| |apply nth_error_None in Hn; lia].
    destruct (is_frozen s v); [split; auto|]. pose proof (flush_all_ok s v W) as H. destruct (flush_all compat ord top s v) as [s2 u|s2|]; cbn [obind]; [| |split; auto].
    + destruct H as [W2 [X _]]. split; auto. intros _. apply HD. apply (x_nodes _ _ X).
    + destruct H as [W2 [X _]]. split; auto. intros _. apply HD. apply (x_nodes _ _ X).
  - destruct (nth_error (nodes s) v) as [[|args f d]|] eqn:Hn; [split; auto| |apply nth_error_None in Hn; lia].
    pose proof (flush_all_ok s v W) as H. destruct (flush_all compat ord top s v) as [s2 u|s2|]; cbn [obind]; [| |split; auto].
    + destruct H as [W2 [X _]]. split; auto. intros _. apply HD. apply (x_nodes _ _ X).
    + destruct H as [W2 [X _]]. split; auto. intros _. apply HD. apply (x_nodes _ _ X).
  - destruct Hc as [args [f [d Hn]]]. rewrite Hn. destruct b; cbn [obind].
    + pose proof (flush_all_ok s v W) as H. destruct (flush_all compat ord top s v) as [s2 u|s2|]; cbn [obind]; [| |split; auto].
      * destruct H as [W2 [X _]]. split; [destruct W2; constructor; auto|]. intros _. apply HD. apply (x_nodes _ _ X).
      * destruct H as [W2 [X _]]. split; auto. intros _. apply HD. apply (x_nodes _ _ X).
    + split; [destruct W; constructor; auto|]. intros _ D. exact D.
  - destruct Hc as [args [f [d Hn]]]. rewrite Hn. split; [|intros []].
    assert (Em : mgr s = map (fun x => x) (mgr s)) by now rewrite map_id. rewrite Em.
    change (WF (appended s (NOp args f 0) (val s v) (fun x => x) (man s v))). apply app_WF; auto. cbn.
    destruct (wf_args _ W _ _ _ _ Hn) as [Hne _]. split; auto. split; [eapply old_args; eauto|]. split.
    + intros a Ha Ho. eapply (wf_man _ W); eauto.
    + intros Hx. eapply (wf_none _ W); eauto.
Qed.

Lemma step_callable s o : step compat ord top s o <> Bad -> callable s o.
Proof.
  destruct o as [x|args f|x y b|v|v|v b|v]; cbn [step callable]; auto.
  - destruct (length args =? 0) eqn:El; [cbn; congruence|]. destruct (forallb (fun a => a <? length (nodes s)) args) eqn:Ef; [|cbn; congruence].
    intros _. split; [intros ->; discriminate|]. rewrite forallb_forall in Ef. intros a Ha. apply Nat.ltb_lt, Ef, Ha.
  - unfold leaf. destruct (nth_error (nodes s) x) as [[|]|]; congruence.
  - destruct (nth_error (nodes s) v) as [[|]|] eqn:E; try congruence; intros _; now apply nth_error_lt in E.
  - destruct (nth_error (nodes s) v) as [[|]|] eqn:E; try congruence; intros _; now apply nth_error_lt in E.
  - destruct (nth_error (nodes s) v) as [[|args f d]|] eqn:E; try congruence. intros _. exists args, f, d. exact E.
  - destruct (nth_error (nodes s) v) as [[|args f d]|] eqn:E; try congruence. intros _. exists args, f, d. exact E.
Qed.

Lemma run_on_WF ops : forall s s', WF s -> run_on compat ord top s ops = Some s' -> WF s' /\ (Forall no_clone ops -> Deep s -> Deep s').
Proof.
  induction ops as [|o ops IH]; intros s s' W E; cbn [run_on] in E; [injection E as <-; auto|].
  assert (Hc : callable s o) by (apply step_callable; intros C; rewrite C in E; discriminate).
  destruct (step_WF s o W Hc) as [HW HDp]. destruct (step compat ord top s o) as [s1 r|s1|] eqn:Es; try discriminate.
  - destruct (IH s1 s' HW E) as [H1 H2]. split; auto. intros HF D. apply Forall_cons_iff in HF as [Hf HF]. auto.
  - destruct (IH s1 s' HW E) as [H1 H2]. split; auto. intros HF D. apply Forall_cons_iff in HF as [Hf HF]. auto.
Qed.

(** ---- recovery ---- *)
Lemma assigns_ok m l : forall s s' (R : nat -> Prop), WF s -> Deep s -> settled s m \/ (forall b, blocked s b -> man s b <> m) ->
  Inv s (fun x => x = m) R (fun _ => False) -> run compat ord top s (map (fun p => EAssign (fst p) (snd p) true) l) = Done s' tt ->
  WF s' /\ Deep s' /\ (forall b, blocked s' b -> man s' b <> m) /\ nodes s' = nodes s /\ mgr s' = mgr s /\ frozen s' = frozen s /\
  exists R' : nat -> Prop, (forall w, R w -> R' w) /\ (forall p, In p l -> R' (fst p)) /\ Inv s' (fun x => x = m) R' (fun _ => False).
Proof.
  induction l as [|[x y] l IH]; intros s s' R W D HB I E; cbn [map run] in E.
  - injection E as <-. assert (HB' : forall b, blocked s b -> man s b <> m) by (destruct HB as [[_ H]|H]; [intros b [Hb _]; auto|auto]).
    repeat (split; auto). exists R. split; auto. split; [intros p []|auto].
  - assert (HB' : forall b, blocked s b -> man s b <> m) by (destruct HB as [[_ H]|H]; [intros b [Hb _]; auto|auto]).
    cbn [step fst snd] in E. destruct (nth_error (nodes s) x) as [[|]|] eqn:Hn; try discriminate.
    destruct (set_leaf_WF s x y W Hn) as [W1 _]. pose proof (notify_ok (set_val s x y) x W1) as HN.
    destruct (EvalModel.notify compat ord (set_val s x y) x) as [s2 []|s2|]; try discriminate. cbn [obind] in E.
    destruct HN as [W2 [E2 [_ H2]]].
    destruct (H2 (fun x => x = m) (fun w => R w \/ w = x) (fun _ => False) D) as [R2 [HR2 I2]].
    { intros c _ HM b Hb Hbm. exfalso. apply (HB' b); [exact Hb|]. change (man (set_val s x y) b) with (man s b) in Hbm. rewrite Hbm. exact HM. }
    { exact (Inv_set_leaf s _ _ _ x y W Hn I). }
    destruct (IH s2 s' R2 W2 (Deep_ext _ _ E2 D)) as [W' [D' [B' [N' [G' [F' [R' [HR' [HA I']]]]]]]]]; auto.
    { right. intros b Hb. apply (e_blocked _ _ E2) in Hb. rewrite (ext_man _ _ _ E2). now apply HB'. }
    split; auto. split; auto. split; auto. rewrite N', G', F', (e_nodes _ _ E2), (e_mgr _ _ E2), (e_frozen _ _ E2). repeat (split; auto).
    exists R'. split; [auto|]. split; auto. intros p [<-|Hp]; [cbn; apply HR', HR2; now right|now apply HA].
Qed.

(** ---- how often nodes are computed ---- *)
Inductive uch (ns : list (enode V)) (u : nat) : nat -> Prop :=
| uch_refl : uch ns u u
| uch_step w a : args_of ns w = [a] -> uch ns u a -> uch ns u w.

Lemma uch_comparable ns u1 u2 w : uch ns u1 w -> uch ns u2 w -> uch ns u1 u2 \/ uch ns u2 u1.
Proof.
  intros H1. induction H1 as [|w a Ha H1 IH]; intros H2; [now right|]. inversion H2 as [|w' a' Ha' H2']; subst.
  - left. eapply uch_step; eauto.
  - rewrite Ha in Ha'. injection Ha' as <-. auto.
Qed.
Lemma uch_le s u w : WF s -> uch (nodes s) u w -> u <= w.
Proof.
  intros W. induction 1 as [|w a Ha H IH]; auto. unfold args_of in Ha. destruct (nth_error (nodes s) w) as [[|args f d]|] eqn:E; try discriminate. subst args.
  pose proof (proj2 (wf_args _ W _ _ _ _ E) a (or_introl eq_refl)). lia.
Qed.

Definition unary (ns : list (enode V)) v := length (args_of ns v) = 1.

Lemma NoDup_app_intro {A} (l1 l2 : list A) : NoDup l1 -> NoDup l2 -> (forall x, In x l1 -> In x l2 -> False) -> NoDup (l1 ++ l2).
Proof.
  induction 1 as [|x l Hx N IH]; intros N2 H; cbn; auto. constructor.
  - intros C. apply in_app_or in C as [C|C]; [contradiction|]. apply (H x); [now left|auto].
  - apply IH; auto. intros z Hz. apply H. now right.
Qed.

(** what one notification computes *)
Definition logs s u s' : Prop := exists l, elog s' = elog s ++ l /\ NoDup l /\ forall w, In w l -> unary (nodes s) w /\ exists c, In c u /\ unary (nodes s) c /\ uch (nodes s) c w.

Lemma logs_nil s u : logs s u s.
Proof. exists []. rewrite app_nil_r. split; auto. split; [constructor|]. intros w []. Qed.

Lemma notify_logs k l v s : (forall s v, WF s -> is_op (nodes s) v = true -> length (nodes s) - v <= k ->
    match upd k s v with Bad => True | Exc s' => logs s [v] s' | Done s' _ => logs s [v] s' end) ->
  WF s -> NoDup l -> (forall c, In c l -> In v (args_of (nodes s) c) /\ is_op (nodes s) c = true /\ length (nodes s) - c <= k) ->
  match notify_list (upd k) l s with Bad => True | Exc s' => logs s l s' | Done s' _ => logs s l s' end.
Proof.
  intros IH. revert s. induction l as [|c l IHl]; intros s W ND Hl; cbn [notify_list]; [apply logs_nil|].
  apply NoDup_cons_iff in ND as [Hc ND]. destruct (Hl c (or_introl eq_refl)) as [Hv [Ho Hk]]. pose proof (IH s c W Ho Hk) as H1. pose proof (upd_ok k s c W Ho Hk) as H0.
  destruct (upd k s c) as [s1 []|s1|]; cbn [obind]; auto.
  2: { destruct H1 as [l1 [E1 [N1 H1]]]. exists l1. split; auto. split; auto. intros w Hw. destruct (H1 w Hw) as [A [c' [[<-|[]] B]]]. split; auto. exists c. split; [now left|auto]. }
  destruct H0 as [W1 [X1 _]]. destruct H1 as [l1 [E1 [N1 H1]]].
  assert (Hl1 : forall c, In c l -> In v (args_of (nodes s1) c) /\ is_op (nodes s1) c = true /\ length (nodes s1) - c <= k) by (intros c' Hc'; rewrite (e_nodes _ _ X1); apply Hl; now right).
  pose proof (IHl s1 W1 ND Hl1) as H2.
  assert (J : forall s2, logs s1 l s2 -> logs s (c :: l) s2).
  { intros s2 [l2 [E2 [N2 H3]]]. exists (l1 ++ l2). split; [rewrite E2, E1; now rewrite app_assoc|]. rewrite (e_nodes _ _ X1) in H3. split.
    - apply NoDup_app_intro; auto. intros w Hw1 Hw2. destruct (H1 w Hw1) as [_ [c1 [[<-|[]] [U1 C1]]]]. destruct (H3 w Hw2) as [_ [c2 [Hc2 [U2 C2]]]].
      assert (Hne : c <> c2) by (intros ->; contradiction).
      destruct (Hl c2 (or_intror Hc2)) as [Hv2 _].
      assert (Sing : forall z, unary (nodes s) z -> In v (args_of (nodes s) z) -> args_of (nodes s) z = [v]).
      { unfold unary. intros z Uz Hz. destruct (args_of (nodes s) z) as [|a [|]]; cbn in Uz; try lia. destruct Hz as [->|[]]. reflexivity. }
      assert (Lt : forall z, In v (args_of (nodes s) z) -> v < z).
      { intros z Hz. unfold args_of in Hz. destruct (nth_error (nodes s) z) as [[|a f d]|] eqn:E; try contradiction. eapply (wf_args _ W); eauto. }
      destruct (uch_comparable _ _ _ _ C1 C2) as [C|C]; inversion C as [|w' a Ha Hu]; subst; try congruence.
      + rewrite (Sing c2 U2 Hv2) in Ha. injection Ha as <-. apply (uch_le s _ _ W) in Hu. specialize (Lt c Hv). lia.
      + rewrite (Sing c U1 Hv) in Ha. injection Ha as <-. apply (uch_le s _ _ W) in Hu. specialize (Lt c2 Hv2). lia.
    - intros w Hw. apply in_app_or in Hw as [Hw|Hw].
      + destruct (H1 w Hw) as [A [c' [[<-|[]] B]]]. split; auto. exists c. split; [now left|auto].
      + destruct (H3 w Hw) as [A [c' [Hc' B]]]. split; auto. exists c'. split; [now right|auto]. }
  destruct (notify_list (upd k) l s1) as [s2 []|s2|]; auto.
Qed.

Lemma upd_logs k : forall s v, WF s -> is_op (nodes s) v = true -> length (nodes s) - v <= k ->
    match upd k s v with Bad => True | Exc s' => logs s [v] s' | Done s' _ => logs s [v] s' end.
Proof.
  induction k as [|k IH]; intros s v W Ho Hk; [exact Logic.I|]. pose proof Ho as Ho'. apply is_op_inv in Ho as [args [f [d Hn]]]. cbn [EvalModel.upd]. rewrite Hn.
  destruct (all_some (map (val s) args)) as [vs|] eqn:Ha; [|apply logs_nil].
  destruct (is_frozen s v || (1 <? length args)) eqn:Ec.
  { assert (X : logs s [v] (add_update s v)) by (exists []; rewrite app_nil_r; split; [unfold add_update; destruct (mem v (qmap s)); reflexivity|split; [constructor|intros w []]]). exact X. }
  apply orb_false_iff in Ec as [_ Ec]. apply Nat.ltb_ge in Ec. destruct (wf_args _ W _ _ _ _ Hn) as [Hne _].
  assert (Hu : unary (nodes s) v) by (unfold unary, args_of; rewrite Hn; destruct args as [|a [|]]; cbn in *; [congruence|reflexivity|lia]).
  pose proof (forward_ok s v args f d vs W Hn Ha) as HF. destruct (forward_pass s v) as [s1 []|s1|]; cbn [obind]; auto.
  2: { subst s1. exists [v]. split; auto. split; [repeat constructor; intros []|]. intros w [<-|[]]. split; auto. exists v. split; [now left|]. split; auto. constructor. }
  destruct HF as [x [-> Hf]].
  assert (W1 : WF (set_val (set_log s v) v x)) by (eapply (set_val_WF (set_log s v)); [now apply set_log_WF|exact Hn|change (val (set_log s v)) with (val s); congruence]).
  set (s1 := set_val (set_log s v) v x) in *.
  assert (Hch : forall c, In c (ord (nodes s1) v) -> In v (args_of (nodes s1) c) /\ is_op (nodes s1) c = true /\ length (nodes s1) - c <= k).
  { intros c Hc. split; [now apply ord_In|]. destruct (child_facts s1 v c W1 Ho' Hc) as [H1 [H2 _]]. split; auto. change (nodes s1) with (nodes s). lia. }
  pose proof (notify_logs k (ord (nodes s1) v) v s1 IH W1 (ord_NoDup _ _) Hch) as HN.
  assert (J : forall s2, logs s1 (ord (nodes s1) v) s2 -> logs s [v] s2).
  { intros s2 [l [E [N H]]]. exists (v :: l). split; [rewrite E; unfold s1; cbn [elog set_val set_log]; now rewrite <- app_assoc|].
    change (nodes s1) with (nodes s) in H.
    assert (Hin : forall w, In w l -> unary (nodes s) w /\ uch (nodes s) v w /\ v < w).
    { intros w Hw. destruct (H w Hw) as [A [c [Hc [Uc C]]]]. split; auto. pose proof (proj1 (ord_In _ _ _) Hc) as Hvc.
      assert (Ea : args_of (nodes s) c = [v]). { unfold unary in Uc. destruct (args_of (nodes s) c) as [|a [|]]; cbn in Uc; try lia. destruct Hvc as [->|[]]. reflexivity. }
      split.
      - clear - C Ea. induction C as [|w a Ha C IH]; [eapply uch_step; [exact Ea|constructor]|eapply uch_step; eauto].
      - apply (uch_le s _ _ W) in C. destruct (child_facts s1 v c W1 Ho' Hc) as [_ [Hlt _]]. lia. }
    split; [constructor; auto; intros C; destruct (Hin v C) as [_ [_ L]]; lia|].
    intros w [<-|Hw]; [split; auto; exists v; split; [now left|split; auto; constructor]|]. destruct (Hin w Hw) as [A [B _]]. split; auto. exists v. split; [now left|auto]. }
  destruct (notify_list (upd k) (ord (nodes s1) v) s1) as [s2 []|s2|]; auto.
Qed.

Lemma notify_logs' s v : WF s -> match notify s v with Bad => True | Exc s' => logs s (ord (nodes s) v) s' | Done s' _ => logs s (ord (nodes s) v) s' end.
Proof.
  intros W. unfold EvalModel.notify. apply (notify_logs _ _ v); auto; [intros; apply upd_logs; auto|apply ord_NoDup|].
  intros c Hc. split; [now apply ord_In|]. destruct (child_facts0 s v c W Hc) as [H1 [H2 H3]]. split; auto. lia.
Qed.

Definition nary (ns : list (enode V)) v := 1 <? length (args_of ns v).

(** when nothing is frozen only operations with several arguments are queued *)
Definition grows s s' : Prop := frozen s = [] -> forall w, In w (queue s') -> In w (queue s) \/ nary (nodes s) w = true.
Lemma grows_refl s : grows s s. Proof. intros _ w; auto. Qed.
Lemma grows_trans a b c : nodes b = nodes a -> frozen b = frozen a -> grows a b -> grows b c -> grows a c.
Proof. intros En Ef H1 H2 F w Hw. destruct (H2 (eq_trans Ef F) w Hw) as [H|H]; auto. right. now rewrite En in H. Qed.

Lemma notify_list_grows k l : (forall s v, WF s -> is_op (nodes s) v = true -> length (nodes s) - v <= k ->
    match upd k s v with Bad => True | Exc s' => grows s s' | Done s' _ => grows s s' end) ->
  forall s, WF s -> (forall c, In c l -> is_op (nodes s) c = true /\ length (nodes s) - c <= k) ->
  match notify_list (upd k) l s with Bad => True | Exc s' => grows s s' | Done s' _ => grows s s' end.
Proof.
  intros IH. induction l as [|c l IHl]; intros s W Hl; cbn [notify_list]; [apply grows_refl|].
  destruct (Hl c (or_introl eq_refl)) as [Ho Hk]. pose proof (IH s c W Ho Hk) as H1. pose proof (upd_ok k s c W Ho Hk) as H0.
  destruct (upd k s c) as [s1 []|s1|]; cbn [obind]; auto. destruct H0 as [W1 [X1 _]].
  assert (Hl1 : forall c, In c l -> is_op (nodes s1) c = true /\ length (nodes s1) - c <= k) by (intros c' Hc'; rewrite (e_nodes _ _ X1); apply Hl; now right).
  pose proof (IHl s1 W1 Hl1) as H2.
  destruct (notify_list (upd k) l s1) as [s2 []|s2|]; auto; apply (grows_trans s s1 s2 (e_nodes _ _ X1) (e_frozen _ _ X1) H1 H2).
Qed.
Lemma upd_grows k : forall s v, WF s -> is_op (nodes s) v = true -> length (nodes s) - v <= k ->
    match upd k s v with Bad => True | Exc s' => grows s s' | Done s' _ => grows s s' end.
Proof.
  induction k as [|k IH]; intros s v W Ho Hk; [exact Logic.I|]. pose proof Ho as Ho'. apply is_op_inv in Ho as [args [f [d Hn]]]. cbn [EvalModel.upd]. rewrite Hn.
  destruct (all_some (map (val s) args)) as [vs|] eqn:Ha; [|apply grows_refl].
  destruct (is_frozen s v || (1 <? length args)) eqn:Ec.
  { intros F w Hw. unfold add_update in Hw. destruct (mem v (qmap s)); auto. destruct Hw as [<-|Hw]; auto. right. unfold nary, args_of. rewrite Hn.
    unfold is_frozen in Ec. rewrite F in Ec. exact Ec. }
  pose proof (forward_ok s v args f d vs W Hn Ha) as HF. destruct (forward_pass s v) as [s1 []|s1|]; cbn [obind]; auto.
  2: { subst s1. intros F w Hw. now left. }
  destruct HF as [x [-> Hf]].
  assert (W1 : WF (set_val (set_log s v) v x)) by (eapply (set_val_WF (set_log s v)); [now apply set_log_WF|exact Hn|change (val (set_log s v)) with (val s); congruence]).
  set (s1 := set_val (set_log s v) v x) in *.
  assert (Hch : forall c, In c (ord (nodes s1) v) -> is_op (nodes s1) c = true /\ length (nodes s1) - c <= k).
  { intros c Hc. destruct (child_facts s1 v c W1 Ho' Hc) as [H1 [H2 _]]. split; auto. change (nodes s1) with (nodes s). lia. }
  exact (notify_list_grows k (ord (nodes s1) v) IH s1 W1 Hch).
Qed.
Lemma notify_grows s v : WF s -> match notify s v with Bad => True | Exc s' => grows s s' | Done s' _ => grows s s' end.
Proof.
  intros W. unfold EvalModel.notify. apply notify_list_grows; auto; [intros; apply upd_grows; auto|].
  intros c Hc. destruct (child_facts0 s v c W Hc) as [H1 [H2 H3]]. split; auto. lia.
Qed.

Lemma NoDup_1 {A} (x : A) : NoDup [x]. Proof. constructor; [intros []|constructor]. Qed.

(** what one flush computes *)
Definition nq s : Prop := frozen s = [] /\ forall w, In w (queue s) -> nary (nodes s) w = true.
Definition flogs s s' : Prop := exists l, elog s' = elog s ++ l /\
  (NoDup (filter (nary (nodes s)) l) /\ forall w, In w l -> nary (nodes s) w = true -> ~ blocked s w) /\
  (nq s -> nq s' /\ NoDup l /\ forall w, In w l -> exists v, nary (nodes s) v = true /\ ~ blocked s v /\ uch (nodes s) v w).

Lemma filter_none {A} (p : A -> bool) l : (forall x, In x l -> p x = false) -> filter p l = [].
Proof. induction l as [|x l IH]; intros H; auto. cbn. rewrite (H x) by now left. apply IH. intros; apply H; now right. Qed.
Lemma unary_nary ns v : unary ns v -> nary ns v = false.
Proof. unfold unary, nary. intros ->. reflexivity. Qed.
Lemma uch_nary ns v w : uch ns v w -> nary ns w = true -> w = v.
Proof. intros H. inversion H as [|w' a Ha Hu]; subst; auto. unfold nary. rewrite Ha. discriminate. Qed.

Lemma flush_logs m k : forall s, WF s -> match flush k s m with Bad => True | Exc s' => flogs s s' | Done s' _ => flogs s s' end.
Proof.
  induction k as [|k IH]; intros s W; [exact Logic.I|]. cbn [EvalModel.flush].
  pose proof (Htop (nodes s) (filter (fun v => man s v =? m) (queue s))) as HT.
  destruct (top (nodes s) (filter (fun v => man s v =? m) (queue s))) as [v|].
  2: { exists []. split; [cbn; now rewrite app_nil_r|]. split; [split; [constructor|intros w []]|]. intros [F Q]. split; [now split|]. split; [constructor|intros w []]. }
  destruct HT as [Hin _]. apply filter_In in Hin as [Hin Hm].
  pose proof (wf_ops _ W _ (wf_sub _ W _ Hin)) as Ho. pose proof Ho as Ho'. apply is_op_inv in Ho as [args [f [d Hn]]].
  pose proof (wf_good _ W _ _ _ _ Hn Hin) as Hg. destruct (all_some (map (val s) args)) as [vs|] eqn:Ha; [|congruence].
  pose proof (WF_pop s v W) as W0. set (s0 := set_queue s (filter (fun x => negb (x =? v)) (queue s)) (qmap s)) in *.
  assert (B0 : forall w, blocked s w -> blocked s0 w).
  { intros w [H1 H2]. split; auto. cbn. rewrite filter_In. tauto. }
  assert (Bv : blocked s0 v) by (split; [exact (wf_sub _ W _ Hin)|cbn; rewrite filter_In, Nat.eqb_refl; cbn; intros [_ C]; discriminate]).
  assert (Bn : ~ blocked s v) by (intros [_ C]; auto).
  assert (Q0 : nq s -> nq s0) by (intros [F Q]; split; auto; cbn; intros w Hw; apply filter_In in Hw; apply Q; tauto).
  pose proof (forward_ok s0 v args f d vs W0 Hn Ha) as HF. destruct (forward_pass s0 v) as [s1 []|s1|]; cbn [obind]; auto.
  2: { subst s1. exists [v]. split; auto. split; [split|].
       - cbn [filter]. destruct (nary (nodes s) v); [apply NoDup_1|constructor].
       - intros w [<-|[]]; auto.
       - intros Q. split; [exact (Q0 Q)|]. split; [apply NoDup_1|]. intros w [<-|[]]. exists v. split; [now apply (proj2 Q)|]. split; auto. constructor. }
  destruct HF as [x [-> Hf]].
  assert (W1 : WF (set_val (set_log s0 v) v x)) by (eapply (set_val_WF (set_log s0 v)); [now apply set_log_WF|exact Hn|change (val (set_log s0 v)) with (val s); congruence]).
  set (s1 := set_val (set_log s0 v) v x) in *.
  assert (Q1 : nq s -> nq s1) by (intros Q; exact (Q0 Q)).
  assert (E1 : elog s1 = elog s ++ [v]) by reflexivity.
  assert (Bs1 : forall w, blocked s1 w <-> blocked s0 w) by (intros w; split; intros H; exact H).
  pose proof (notify_ok s1 v W1) as HN. pose proof (notify_logs' s1 v W1) as HL. pose proof (notify_grows s1 v W1) as HG.
  assert (J : forall s2, logs s1 (ord (nodes s1) v) s2 -> exists l, elog s2 = elog s ++ v :: l /\ NoDup (v :: l) /\ (forall w, In w l -> nary (nodes s) w = false) /\ (forall w, In w (v :: l) -> uch (nodes s) v w)).
  { intros s2 [l [E [N H]]]. exists l. rewrite E, E1, <- app_assoc. split; auto. change (nodes s1) with (nodes s) in H.
    assert (Hx : forall w, In w l -> unary (nodes s) w /\ uch (nodes s) v w /\ v < w).
    { intros w Hw. destruct (H w Hw) as [A [c [Hc [Uc C]]]]. split; auto. pose proof (proj1 (ord_In _ _ _) Hc) as Hvc.
      assert (Ea : args_of (nodes s) c = [v]). { unfold unary in Uc. destruct (args_of (nodes s) c) as [|a [|]]; cbn in Uc; try lia. destruct Hvc as [->|[]]. reflexivity. }
      split.
      - clear - C Ea. induction C as [|w a Ha C IH]; [eapply uch_step; [exact Ea|constructor]|eapply uch_step; eauto].
      - apply (uch_le s _ _ W) in C. destruct (child_facts s v c W Ho' Hc) as [_ [Hlt _]]. lia. }
    split; [constructor; auto; intros C; destruct (Hx v C) as [_ [_ L]]; lia|]. split.
    - intros w Hw. apply unary_nary. now apply Hx.
    - intros w [<-|Hw]; [constructor|now apply Hx]. }
  destruct (notify s1 v) as [s2 []|s2|]; cbn [obind]; auto.
  2: { destruct HN as [_ X2]. destruct (J s2 HL) as [l [E [N [H1 H2]]]]. exists (v :: l). split; auto. split; [split|].
       - cbn [filter]. rewrite (filter_none _ l H1). destruct (nary (nodes s) v); [apply NoDup_1|constructor].
       - intros w Hw Hnw. rewrite (uch_nary _ _ _ (H2 w Hw) Hnw). exact Bn.
       - intros Q. destruct (Q1 Q) as [F1 Q1']. split.
         + split; [rewrite (e_frozen _ _ X2); auto|]. intros w Hw. rewrite (e_nodes _ _ X2). destruct (HG F1 w Hw); auto.
         + split; auto. intros w Hw. exists v. split; [now apply (proj2 Q)|auto]. }
  destruct HN as [W2 [X2 _]]. destruct (J s2 HL) as [l [E [N [H1 H2]]]].
  assert (Q2 : nq s -> nq s2).
  { intros Q. destruct (Q1 Q) as [F1 Q1']. split; [rewrite (e_frozen _ _ X2); auto|]. intros w Hw. rewrite (e_nodes _ _ X2). destruct (HG F1 w Hw); auto. }
  assert (B2 : forall w, blocked s w \/ w = v -> blocked s2 w).
  { intros w Hw. apply (e_blocked _ _ X2), Bs1. destruct Hw as [Hw| ->]; auto. }
  assert (K : forall s3, flogs s2 s3 -> flogs s s3).
  { intros s3 [l3 [E3 [[N3 H3] Q3]]]. rewrite (e_nodes _ _ X2) in N3, H3, Q3. change (nodes s1) with (nodes s) in N3, H3, Q3.
    exists ((v :: l) ++ l3). split; [rewrite E3, E, <- app_assoc; reflexivity|]. split; [split|].
    - rewrite filter_app. cbn [filter]. rewrite (filter_none _ l H1). destruct (nary (nodes s) v) eqn:Hv; cbn; auto. constructor; auto.
      rewrite filter_In. intros [C _]. apply (H3 v C Hv), B2. now right.
    - intros w Hw Hnw. apply in_app_or in Hw as [Hw|Hw].
      + rewrite (uch_nary _ _ _ (H2 w Hw) Hnw). exact Bn.
      + intros C. apply (H3 w Hw Hnw), B2. now left.
    - intros Q. destruct (Q3 (Q2 Q)) as [Qs3 [Nl3 Hl3]]. split; auto. split.
      + apply NoDup_app_intro; auto. intros w Hw1 Hw2. specialize (H2 w Hw1). destruct (Hl3 w Hw2) as [v' [Hv' [Hb' Hu']]].
        assert (Hvn : nary (nodes s) v = true) by now apply (proj2 Q).
        assert (v' = v) as ->. { destruct (uch_comparable _ _ _ _ H2 Hu') as [C|C]; [now apply (uch_nary _ _ _ C)|symmetry; now apply (uch_nary _ _ _ C)]. }
        apply Hb', B2. now right.
      + intros w Hw. apply in_app_or in Hw as [Hw|Hw].
        * exists v. split; [now apply (proj2 Q)|auto].
        * destruct (Hl3 w Hw) as [v' [Hv' [Hb' Hu']]]. exists v'. split; [exact Hv'|]. split; [|exact Hu']. intros C. apply Hb', B2. now left. }
  pose proof (IH s2 W2) as H. destruct (flush k s2 m) as [s3 []|s3|]; auto.
Qed.

Lemma flush_all_logs s v : WF s -> match flush_all compat ord top s v with Bad => True | Exc s' => flogs s s' | Done s' _ => flogs s s' end.
Proof. intros W. apply flush_logs; auto. Qed.

(** ---- nodes of frozen managers keep their values ---- *)
Definition keeps s s' : Prop := forall w, is_op (nodes s) w = true -> is_frozen s w = true -> val s' w = val s w.
Lemma is_frozen_ext s s' w : mgr s' = mgr s -> frozen s' = frozen s -> is_frozen s' w = is_frozen s w.
Proof. unfold is_frozen, man. now intros -> ->. Qed.
Lemma keeps_trans a b c : nodes b = nodes a -> mgr b = mgr a -> frozen b = frozen a -> keeps a b -> keeps b c -> keeps a c.
Proof. intros En Em Ef H1 H2 w Ho Hf. rewrite H2; auto; [now rewrite En|]. now rewrite (is_frozen_ext a b). Qed.

Lemma notify_list_keeps k l : (forall s v, WF s -> is_op (nodes s) v = true -> length (nodes s) - v <= k ->
    match upd k s v with Bad => True | Exc s' => keeps s s' | Done s' _ => keeps s s' end) ->
  forall s, WF s -> (forall c, In c l -> is_op (nodes s) c = true /\ length (nodes s) - c <= k) ->
  match notify_list (upd k) l s with Bad => True | Exc s' => keeps s s' | Done s' _ => keeps s s' end.
Proof.
  intros IH. induction l as [|c l IHl]; intros s W Hl; cbn [notify_list]; [intros w _ _; reflexivity|].
  destruct (Hl c (or_introl eq_refl)) as [Ho Hk]. pose proof (IH s c W Ho Hk) as H1. pose proof (upd_ok k s c W Ho Hk) as H0.
  destruct (upd k s c) as [s1 []|s1|]; cbn [obind]; auto. destruct H0 as [W1 [X1 _]].
  assert (Hl1 : forall c, In c l -> is_op (nodes s1) c = true /\ length (nodes s1) - c <= k) by (intros c' Hc'; rewrite (e_nodes _ _ X1); apply Hl; now right).
  pose proof (IHl s1 W1 Hl1) as H2.
  destruct (notify_list (upd k) l s1) as [s2 []|s2|]; auto; apply (keeps_trans s s1 s2 (e_nodes _ _ X1) (e_mgr _ _ X1) (e_frozen _ _ X1) H1 H2).
Qed.
Lemma upd_keeps k : forall s v, WF s -> is_op (nodes s) v = true -> length (nodes s) - v <= k ->
    match upd k s v with Bad => True | Exc s' => keeps s s' | Done s' _ => keeps s s' end.
Proof.
  induction k as [|k IH]; intros s v W Ho Hk; [exact Logic.I|]. pose proof Ho as Ho'. apply is_op_inv in Ho as [args [f [d Hn]]]. cbn [EvalModel.upd]. rewrite Hn.
  destruct (all_some (map (val s) args)) as [vs|] eqn:Ha; [|intros w _ _; reflexivity].
  destruct (is_frozen s v || (1 <? length args)) eqn:Ec.
  { intros w _ _. unfold add_update. destruct (mem v (qmap s)); reflexivity. }
  apply orb_false_iff in Ec as [Ec _].
  pose proof (forward_ok s v args f d vs W Hn Ha) as HF. destruct (forward_pass s v) as [s1 []|s1|]; cbn [obind]; auto.
  2: { subst s1. intros w _ _. reflexivity. }
  destruct HF as [x [-> Hf]].
  assert (W1 : WF (set_val (set_log s v) v x)) by (eapply (set_val_WF (set_log s v)); [now apply set_log_WF|exact Hn|change (val (set_log s v)) with (val s); congruence]).
  set (s1 := set_val (set_log s v) v x) in *.
  assert (Hch : forall c, In c (ord (nodes s1) v) -> is_op (nodes s1) c = true /\ length (nodes s1) - c <= k).
  { intros c Hc. destruct (child_facts s1 v c W1 Ho' Hc) as [H1 [H2 _]]. split; auto. change (nodes s1) with (nodes s). lia. }
  assert (K1 : keeps s s1).
  { intros w Ho Hw. unfold s1. rewrite val_set by (cbn; rewrite (wf_vals _ W); now apply nth_error_lt in Hn). destruct (Nat.eqb_spec w v) as [->|]; [congruence|reflexivity]. }
  pose proof (notify_list_keeps k (ord (nodes s1) v) IH s1 W1 Hch) as H2.
  destruct (notify_list (upd k) (ord (nodes s1) v) s1) as [s2 []|s2|]; auto; exact (keeps_trans s s1 s2 eq_refl eq_refl eq_refl K1 H2).
Qed.
Lemma notify_keeps s v : WF s -> match notify s v with Bad => True | Exc s' => keeps s s' | Done s' _ => keeps s s' end.
Proof.
  intros W. unfold EvalModel.notify. apply notify_list_keeps; auto; [intros; apply upd_keeps; auto|].
  intros c Hc. destruct (child_facts0 s v c W Hc) as [H1 [H2 H3]]. split; auto. lia.
Qed.
Lemma flush_keeps m k : forall s, WF s -> existsb (Nat.eqb m) (frozen s) = false ->
  match flush k s m with Bad => True | Exc s' => keeps s s' | Done s' _ => keeps s s' end.
Proof.
  induction k as [|k IH]; intros s W Hm; [exact Logic.I|]. cbn [EvalModel.flush].
  pose proof (Htop (nodes s) (filter (fun v => man s v =? m) (queue s))) as HT.
  destruct (top (nodes s) (filter (fun v => man s v =? m) (queue s))) as [v|]; [|intros w _ _; reflexivity].
  destruct HT as [Hin _]. apply filter_In in Hin as [Hin Hv]. apply Nat.eqb_eq in Hv.
  pose proof (wf_ops _ W _ (wf_sub _ W _ Hin)) as Ho. pose proof Ho as Ho'. apply is_op_inv in Ho as [args [f [d Hn]]].
  pose proof (wf_good _ W _ _ _ _ Hn Hin) as Hg. destruct (all_some (map (val s) args)) as [vs|] eqn:Ha; [|congruence].
  pose proof (WF_pop s v W) as W0. set (s0 := set_queue s (filter (fun x => negb (x =? v)) (queue s)) (qmap s)) in *.
  pose proof (forward_ok s0 v args f d vs W0 Hn Ha) as HF. destruct (forward_pass s0 v) as [s1 []|s1|]; cbn [obind]; auto.
  2: { subst s1. intros w _ _. reflexivity. }
  destruct HF as [x [-> Hf]].
  assert (W1 : WF (set_val (set_log s0 v) v x)) by (eapply (set_val_WF (set_log s0 v)); [now apply set_log_WF|exact Hn|change (val (set_log s0 v)) with (val s); congruence]).
  set (s1 := set_val (set_log s0 v) v x) in *.
  assert (K1 : keeps s s1).
  { intros w Ho Hw. unfold s1. rewrite val_set by (cbn; rewrite (wf_vals _ W); now apply nth_error_lt in Hn). destruct (Nat.eqb_spec w v) as [->|]; [|reflexivity].
    exfalso. unfold is_frozen in Hw. rewrite Hv in Hw. congruence. }
  pose proof (notify_ok s1 v W1) as HN. pose proof (notify_keeps s1 v W1) as HK.
  destruct (notify s1 v) as [s2 []|s2|]; cbn [obind]; auto; [|exact (keeps_trans s s1 s2 eq_refl eq_refl eq_refl K1 HK)].
  destruct HN as [W2 [X2 _]]. assert (K2 : keeps s s2) by exact (keeps_trans s s1 s2 eq_refl eq_refl eq_refl K1 HK).
  assert (Hm2 : existsb (Nat.eqb m) (frozen s2) = false) by (rewrite (e_frozen _ _ X2); exact Hm).
  pose proof (IH s2 W2 Hm2) as H3.
  destruct (flush k s2 m) as [s3 []|s3|]; auto; exact (keeps_trans s s2 s3 (e_nodes _ _ X2) (e_mgr _ _ X2) (e_frozen _ _ X2) K2 H3).
Qed.

(** ---- the computations of a whole call ---- *)
Lemma upstream_man s a v : WF s -> upstream s a v -> is_op (nodes s) a = true -> is_op (nodes s) v = true /\ man s a = man s v.
Proof.
  intros W H Ho. induction H as [v|v args f a b [d Hn] Hin H IH]; auto.
  destruct IH as [Ha Em]; auto. split; [eapply is_op_intro; eauto|]. rewrite Em. eapply (wf_man _ W); eauto.
Qed.
End P.
