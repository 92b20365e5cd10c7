(** Laws of evaluation. *)
From Coq Require Import Permutation.
From Verif Require Import Common EvalModel EvalSpec EvalProofs.

Section Aux.
Context {V : Type} (compat : V -> V -> bool).
Context (ord : list (enode V) -> nat -> list nat) (top : list (enode V) -> list nat -> option nat).
Context (Hord : valid_order ord) (Htop : valid_top top).
Implicit Types s : estate V.
Local Notation step := (step compat ord top).
Local Notation run := (run compat ord top).
Local Notation run_on := (run_on compat ord top).

Lemma eval_inv s v s' r args f d : nth_error (nodes s) v = Some (NOp args f d) -> is_frozen s v = false -> step s (EEval v) = Done s' r ->
  flush_all compat ord top s v = Done s' tt /\ r = val s' v.
Proof.
  cbn [EvalModel.step]. intros -> ->. destruct (flush_all compat ord top s v) as [s1 []|s1|]; cbn [obind]; try discriminate. intros E. injection E as <- <-. auto.
Qed.

Lemma eval_denotes s v s' r : Good s -> is_frozen s v = false -> step s (EEval v) = Done s' r ->
  denotes s' v r /\ Good s' /\ ext2 s s' /\ (is_op (nodes s) v = true -> settled s' (man s v)).
Proof.
  intros G F E. destruct (nth_error (nodes s) v) as [[|args f d]|] eqn:Hn.
  - cbn [EvalModel.step] in E. rewrite Hn in E. injection E as <- <-. split; [now constructor|]. split; auto. split; [apply ext2_refl|]. unfold is_op. rewrite Hn. discriminate.
  - destruct (eval_inv _ _ _ _ _ _ _ Hn F E) as [E1 ->]. destruct (flush_all_Good compat ord top Hord Htop _ _ _ _ G E1) as [G' [X S]].
    split; [|auto]. destruct G' as [W' [D' [B' I']]].
    assert (Em : man s' v = man s v) by (unfold man; now rewrite (x_mgr _ _ X)).
    apply (Inv_denotes s' (fun _ => True) (man s v) W').
    + intros w a g e Hw HM HQ Ha. apply I' with (d := e); auto.
    + intros w Hw. now apply (proj1 S).
    + rewrite (x_nodes _ _ X). now apply nth_error_lt in Hn.
    + auto.
    + auto.
  - cbn [EvalModel.step] in E. rewrite Hn in E. discriminate.
Qed.

Lemma run_on_reach ops s : run_on einit ops = Some s -> WF s.
Proof. intros E. eapply run_on_WF; eauto. apply einit_Good. Qed.
Lemma run_on_deep ops s : Forall no_clone ops -> run_on einit ops = Some s -> WF s /\ Deep s.
Proof. intros H E. destruct (run_on_WF compat ord top Hord Htop ops einit s (proj1 einit_Good) E) as [W D]. split; auto. apply D; auto. apply einit_Good. Qed.

Lemma step_leaves s o s' r v : WF s -> step s o = Done s' r -> (match o with EEval _ | EShape _ => True | _ => False end) -> leaf s v -> val s' v = val s v.
Proof.
  intros W E Ho Hl. destruct o as [| | |w|w| |]; try contradiction; cbn [EvalModel.step] in E; destruct (nth_error (nodes s) w) as [[|args f d]|]; try discriminate;
    try (injection E as <- <-; reflexivity).
  - destruct (is_frozen s w); [injection E as <- <-; reflexivity|]. pose proof (flush_all_ok compat ord top Hord Htop s w W) as H. destruct (flush_all compat ord top s w) as [s1 u|s1|]; try discriminate.
    injection E as <- <-. now apply H.
  - pose proof (flush_all_ok compat ord top Hord Htop s w W) as H. destruct (flush_all compat ord top s w) as [s1 u|s1|]; try discriminate.
    injection E as <- <-. now apply H.
Qed.

(** ---- logs of a call ---- *)
Definition after s o s' : Prop := (exists r, step s o = Done s' r) \/ step s o = Exc s'.

Lemma nq_app s n o g m : WF s -> nq s -> nq (appended s n o g m).
Proof.
  intros W [F Q]. split; auto. intros w Hw. cbn [queue appended] in Hw. rewrite <- (Q w Hw). unfold nary, args_of. rewrite app_old; auto.
  apply is_op_lt. now apply (wf_ops _ W), (wf_sub _ W).
Qed.
Lemma logs_flogs s u s' : (nq s -> nq s') -> logs s u s' ->
  exists l, elog s' = elog s ++ l /\ (forall w, In w l -> nary (nodes s) w = false) /\ (nq s -> nq s') /\ NoDup l.
Proof. intros Hq [l [E [N H]]]. exists l. split; auto. split; auto. intros w Hw. apply unary_nary. now apply H. Qed.

Lemma after_log s o s' : WF s -> after s o s' -> exists l, elog s' = elog s ++ l /\
  (forall v, several s' v -> count_occ Nat.eq_dec l v <= 1) /\ (no_freeze o -> nq s -> nq s' /\ NoDup l).
Proof.
  intros W Ha.
  assert (Nil : elog s' = elog s -> (no_freeze o -> nq s -> nq s') -> exists l, elog s' = elog s ++ l /\
     (forall v, several s' v -> count_occ Nat.eq_dec l v <= 1) /\ (no_freeze o -> nq s -> nq s' /\ NoDup l)).
  { intros E Q. exists []. rewrite app_nil_r. split; auto. split; [intros v _; cbn; lia|]. intros. split; auto. constructor. }
  assert (FL : flogs s s' -> nodes s' = nodes s -> exists l, elog s' = elog s ++ l /\
     (forall v, several s' v -> count_occ Nat.eq_dec l v <= 1) /\ (no_freeze o -> nq s -> nq s' /\ NoDup l)).
  { intros [l [E [[N _] Q]]] En. exists l. split; auto. split.
    - intros v [args [f [[d Hn] Hl]]]. assert (Hv : nary (nodes s) v = true) by (rewrite En in Hn; unfold nary, args_of; rewrite Hn; now apply Nat.ltb_lt).
      clear - N Hv. induction l as [|x l IH]; cbn [count_occ]; [lia|]. cbn [filter] in N. destruct (Nat.eq_dec x v) as [->|Hx].
      + rewrite Hv in N. apply NoDup_cons_iff in N as [Hnin _]. assert (X : count_occ Nat.eq_dec l v = 0); [|rewrite X; auto].
        apply count_occ_not_In. intros C. apply Hnin. apply filter_In. auto.
      + apply IH. destruct (nary (nodes s) x); auto. now apply NoDup_cons_iff in N.
    - intros _ Hq. destruct (Q Hq) as [A [B _]]. auto. }
  assert (LG : forall s0 u s1, logs s0 u s1 -> nodes s1 = nodes s0 -> elog s0 = elog s -> elog s' = elog s1 -> (forall v, several s' v -> nary (nodes s0) v = true) -> (no_freeze o -> nq s -> nq s') ->
     exists l, elog s' = elog s ++ l /\ (forall v, several s' v -> count_occ Nat.eq_dec l v <= 1) /\ (no_freeze o -> nq s -> nq s' /\ NoDup l)).
  { intros s0 u s1 [l [E [N H]]] En El El' Hs Q. exists l. split; [congruence|]. split; [|auto]. intros v Hv. rewrite NoDup_count_occ in N. apply N. }
  destruct o as [x|args f|x y b|v|v|v b|v]; destruct Ha as [[r E]|E]; cbn [EvalModel.step] in E; try discriminate.
  - injection E as <- _. apply Nil; auto. intros _ Q. assert (Em : mgr s = map (fun x => x) (mgr s)) by now rewrite map_id. rewrite Em. exact (nq_app s NLeaf x (fun x => x) _ W Q).
  - destruct (length args =? 0) eqn:El; [discriminate|]. destruct (forallb (fun a => a <? length (nodes s)) args) eqn:Ef; [|discriminate]. cbn [negb orb] in E.
    destruct (join_spec s args) as [g [Hg1 Hg2]]. destruct (join s args) as [mg m] eqn:Ej. cbn [fst snd] in *. subst mg.
    set (n := NOp args f (new_depth (nodes s) args)) in *.
    change (mkE (nodes s ++ [n]) (vals s ++ [None]) (map g (mgr s) ++ [m]) (frozen s) (queue s) (qmap s) (elog s)) with (appended s n None g m) in E.
    assert (W1 : WF (appended s n None g m)).
    { apply app_WF; auto; cbn. split; [intros ->; discriminate|]. split; [|auto]. rewrite forallb_forall in Ef. intros a Ha'. apply Nat.ltb_lt, Ef, Ha'. }
    assert (Ho : is_op (nodes (appended s n None g m)) (length (nodes s)) = true) by (eapply is_op_intro; apply app_new).
    assert (Hk : length (nodes (appended s n None g m)) - length (nodes s) <= S (length (nodes s))) by (cbn; rewrite app_length; cbn; lia).
    pose proof (upd_logs compat ord Hord _ _ _ W1 Ho Hk) as HL. pose proof (upd_grows compat ord Hord _ _ _ W1 Ho Hk) as HG. pose proof (upd_ok compat ord Hord _ _ _ W1 Ho Hk) as HO.
    destruct (upd compat ord (S (length (nodes s))) (appended s n None g m) (length (nodes s))) as [s2 []|s2|]; try discriminate. injection E as <- _.
    destruct HO as [W2 [X2 _]]. apply (LG (appended s n None g m) _ s2 HL); auto; [apply (e_nodes _ _ X2)| |].
    + intros v [a [h [[d Hn] Hl]]]. rewrite (e_nodes _ _ X2) in Hn. unfold nary, args_of. rewrite Hn. now apply Nat.ltb_lt.
    + intros _ Q. pose proof (nq_app s n None g m W Q) as [F1 Q1]. split; [rewrite (e_frozen _ _ X2); auto|]. intros w Hw. rewrite (e_nodes _ _ X2). destruct (HG F1 w Hw); auto.
  - destruct (length args =? 0) eqn:El; [discriminate|]. destruct (forallb (fun a => a <? length (nodes s)) args) eqn:Ef; [|discriminate]. cbn [negb orb] in E.
    destruct (join_spec s args) as [g [Hg1 Hg2]]. destruct (join s args) as [mg m] eqn:Ej. cbn [fst snd] in *. subst mg.
    set (n := NOp args f (new_depth (nodes s) args)) in *.
    change (mkE (nodes s ++ [n]) (vals s ++ [None]) (map g (mgr s) ++ [m]) (frozen s) (queue s) (qmap s) (elog s)) with (appended s n None g m) in E.
    assert (W1 : WF (appended s n None g m)).
    { apply app_WF; auto; cbn. split; [intros ->; discriminate|]. split; [|auto]. rewrite forallb_forall in Ef. intros a Ha'. apply Nat.ltb_lt, Ef, Ha'. }
    assert (Ho : is_op (nodes (appended s n None g m)) (length (nodes s)) = true) by (eapply is_op_intro; apply app_new).
    assert (Hk : length (nodes (appended s n None g m)) - length (nodes s) <= S (length (nodes s))) by (cbn; rewrite app_length; cbn; lia).
    pose proof (upd_logs compat ord Hord _ _ _ W1 Ho Hk) as HL. pose proof (upd_ok compat ord Hord _ _ _ W1 Ho Hk) as HO.
    destruct (upd compat ord (S (length (nodes s))) (appended s n None g m) (length (nodes s))) as [s2 []|s2|]; try discriminate. injection E as <-.
    destruct HO as [W2 X2]. apply (LG (appended s n None g m) _ s2 HL); auto; [apply (e_nodes _ _ X2)|].
    intros v [a [h [[d Hn] Hl]]]. cbn [nodes] in Hn. unfold nary, args_of. rewrite app_old by now apply nth_error_lt in Hn. rewrite Hn. now apply Nat.ltb_lt.
  - destruct (nth_error (nodes s) x) as [[|]|] eqn:Hn; try discriminate. destruct b; [|injection E as <- _; now apply Nil].
    destruct (set_leaf_WF s x y W Hn) as [W1 _]. pose proof (notify_ok compat ord Hord (set_val s x y) x W1) as HN. pose proof (notify_logs' compat ord Hord (set_val s x y) x W1) as HL. pose proof (notify_grows compat ord Hord (set_val s x y) x W1) as HG.
    destruct (notify compat ord (set_val s x y) x) as [s2 []|s2|]; try discriminate. injection E as <- _. destruct HN as [W2 [X2 _]].
    apply (LG (set_val s x y) _ s2 HL); auto; [apply (e_nodes _ _ X2)| |].
    + intros v [a [h [[d Hv] Hl]]]. rewrite (e_nodes _ _ X2) in Hv. unfold nary, args_of. rewrite Hv. now apply Nat.ltb_lt.
    + intros _ [F Q]. split; [rewrite (e_frozen _ _ X2); auto|]. intros w Hw. rewrite (e_nodes _ _ X2). destruct (HG F w Hw) as [H|H]; [exact (Q w H)|exact H].
  - destruct (nth_error (nodes s) x) as [[|]|] eqn:Hn; try discriminate. destruct b; [|discriminate].
    destruct (set_leaf_WF s x y W Hn) as [W1 _]. pose proof (notify_ok compat ord Hord (set_val s x y) x W1) as HN. pose proof (notify_logs' compat ord Hord (set_val s x y) x W1) as HL. pose proof (notify_grows compat ord Hord (set_val s x y) x W1) as HG.
    destruct (notify compat ord (set_val s x y) x) as [s2 []|s2|]; try discriminate. injection E as <-. destruct HN as [W2 X2].
    apply (LG (set_val s x y) _ s2 HL); auto; [apply (e_nodes _ _ X2)| |].
    + intros v [a [h [[d Hv] Hl]]]. rewrite (e_nodes _ _ X2) in Hv. unfold nary, args_of. rewrite Hv. now apply Nat.ltb_lt.
    + intros _ [F Q]. split; [rewrite (e_frozen _ _ X2); auto|]. intros w Hw. rewrite (e_nodes _ _ X2). destruct (HG F w Hw) as [H|H]; [exact (Q w H)|exact H].
  - destruct (nth_error (nodes s) v) as [[|a f d]|] eqn:Hn; try discriminate; [injection E as <- _; now apply Nil|]. destruct (is_frozen s v); [injection E as <- _; now apply Nil|].
    pose proof (flush_all_ok compat ord top Hord Htop s v W) as HO. pose proof (flush_all_logs compat ord top Hord Htop s v W) as HL. destruct (flush_all compat ord top s v) as [s2 u|s2|]; try discriminate. injection E as <- _. apply FL; auto. apply HO.
  - destruct (nth_error (nodes s) v) as [[|a f d]|] eqn:Hn; try discriminate. destruct (is_frozen s v); [discriminate|].
    pose proof (flush_all_ok compat ord top Hord Htop s v W) as HO. pose proof (flush_all_logs compat ord top Hord Htop s v W) as HL. destruct (flush_all compat ord top s v) as [s2 u|s2|]; try discriminate. injection E as <-. apply FL; auto. apply HO.
  - destruct (nth_error (nodes s) v) as [[|a f d]|] eqn:Hn; try discriminate; [injection E as <- _; now apply Nil|].
    pose proof (flush_all_ok compat ord top Hord Htop s v W) as HO. pose proof (flush_all_logs compat ord top Hord Htop s v W) as HL. destruct (flush_all compat ord top s v) as [s2 u|s2|]; try discriminate. injection E as <- _. apply FL; auto. apply HO.
  - destruct (nth_error (nodes s) v) as [[|a f d]|] eqn:Hn; try discriminate.
    pose proof (flush_all_ok compat ord top Hord Htop s v W) as HO. pose proof (flush_all_logs compat ord top Hord Htop s v W) as HL. destruct (flush_all compat ord top s v) as [s2 u|s2|]; try discriminate. injection E as <-. apply FL; auto. apply HO.
  - destruct (nth_error (nodes s) v) as [[|a f d]|] eqn:Hn; try discriminate. destruct b; cbn [obind] in E; [|injection E as <- _; apply Nil; auto; intros []].
    pose proof (flush_all_ok compat ord top Hord Htop s v W) as HO. pose proof (flush_all_logs compat ord top Hord Htop s v W) as HL. destruct (flush_all compat ord top s v) as [s2 u|s2|]; try discriminate. cbn [obind] in E. injection E as <- _.
    destruct HL as [l [El [[N Hb] Q]]].
    exists l. split; auto. split; [|intros []]. intros w [a' [f' [[d' Hw] Hl]]]. cbn [nodes] in Hw. destruct HO as [_ [X _]]. rewrite (x_nodes _ _ X) in Hw.
    assert (Hv : nary (nodes s) w = true) by (unfold nary, args_of; rewrite Hw; now apply Nat.ltb_lt).
    clear - N Hv. induction l as [|x l IH]; cbn [count_occ]; [lia|]. cbn [filter] in N. destruct (Nat.eq_dec x w) as [->|Hx].
    + rewrite Hv in N. apply NoDup_cons_iff in N as [Hnin _]. assert (X : count_occ Nat.eq_dec l w = 0); [|rewrite X; auto].
      apply count_occ_not_In. intros C. apply Hnin. apply filter_In. auto.
    + apply IH. destruct (nary (nodes s) x); auto. now apply NoDup_cons_iff in N.
  - destruct (nth_error (nodes s) v) as [[|a f d]|] eqn:Hn; try discriminate. destruct b; cbn [obind] in E; [|discriminate].
    pose proof (flush_all_ok compat ord top Hord Htop s v W) as HO. pose proof (flush_all_logs compat ord top Hord Htop s v W) as HL. destruct (flush_all compat ord top s v) as [s2 u|s2|]; try discriminate. cbn [obind] in E. injection E as <-.
    apply FL; auto. apply HO.
  - destruct (nth_error (nodes s) v) as [[|a f d]|] eqn:Hn; try discriminate. injection E as <- _. apply Nil; auto. intros _ Q.
    assert (Em : mgr s = map (fun x => x) (mgr s)) by now rewrite map_id. rewrite Em. exact (nq_app s (NOp a f 0) (val s v) (fun x => x) (man s v) W Q).
  - destruct (nth_error (nodes s) v) as [[|a f d]|] eqn:Hn; discriminate.
Qed.

Lemma run_on_nq ops : forall s s', WF s -> nq s -> Forall no_freeze ops -> run_on s ops = Some s' -> nq s'.
Proof.
  induction ops as [|o ops IH]; intros s s' W Q HF E; cbn [EvalModel.run_on] in E; [injection E as <-; auto|].
  apply Forall_cons_iff in HF as [Hf HF].
  assert (Hc : callable s o) by (apply (step_callable compat ord top); intros C; rewrite C in E; discriminate).
  destruct (step_WF compat ord top Hord Htop s o W Hc) as [HW _]. destruct (step s o) as [s1 r|s1|] eqn:Es; try discriminate.
  - destruct (after_log s o s1 W) as [l [_ [_ H]]]; [left; eauto|]. eapply (IH s1); eauto. now apply H.
  - destruct (after_log s o s1 W) as [l [_ [_ H]]]; [right; eauto|]. eapply (IH s1); eauto. now apply H.
Qed.

Lemma settled_flush s v : settled s (man s v) -> exists s', flush_all compat ord top s v = Done s' tt /\ vals s' = vals s /\ elog s' = elog s.
Proof.
  intros [H _]. unfold flush_all. cbn [flush].
  assert (E : filter (fun w => man s w =? man s v) (queue s) = []) by (apply filter_none; intros x Hx; apply Nat.eqb_neq; auto).
  rewrite E. pose proof (Htop (nodes s) []) as HT. destruct (top (nodes s) []) as [w|]; [destruct HT as [[] _]|]. eexists. split; [reflexivity|auto].
Qed.
End Aux.

Lemma least_valid {V} : @valid_top V least.
Proof.
  intros ns q. induction q as [|v q IH]; cbn [least]; auto. destruct (least ns q) as [w|].
  - destruct IH as [Hin Hm]. destruct (Nat.ltb_spec (depth_of ns w) (depth_of ns v)) as [L|L].
    + split; [now right|]. intros x [<-|Hx]; [lia|auto].
    + split; [now left|]. intros x [<-|Hx]; [lia|]. specialize (Hm x Hx). lia.
  - subst q. split; [now left|]. intros x [<-|[]]. lia.
Qed.
Lemma audience_valid {V} : @valid_order V audience.
Proof. intros ns v. apply Permutation_refl. Qed.

Definition sum_all (l : list nat) : option nat := Some (fold_right Nat.add 0 l).
Definition padd (l : list (list nat)) : option (list nat) :=
  match l with [a; b] => if length a =? length b then Some (map (fun p => fst p + snd p) (combine a b)) else None | _ => None end.
Definition same_len (a b : list nat) : bool := length a =? length b.

(** ================= C29 ================= *)

(** Build a graph, assign leaves with notification, evaluate, read shapes, freeze and unfreeze, in
    any order and any number of times, as long as no call throws. If [v] is then not frozen and
    eval of [v] returns, it returns the value the expression of [v] has for the current leaf
    values (the null tensor if a leaf it depends on is not initialised), and no leaf changed,
    whatever the order of notification and the order of equally deep nodes in the queue. *)
Lemma C29_eval_is_current_lemma : forall V compat ord top ops s v s' r,
  @valid_order V ord -> valid_top top ->
  run compat ord top einit ops = Done s tt -> Forall plain ops ->
  is_frozen s v = false ->
  step compat ord top s (EEval v) = Done s' r ->
  denotes s v r /\ nodes s' = nodes s /\ forall x, leaf s x -> val s' x = val s x.
Proof.
  intros V compat ord top ops s v s' r Ho Ht E HP F Es.
  assert (G : Good s) by (eapply run_Good; eauto; apply einit_Good).
  destruct (eval_denotes compat ord top Ho Ht s v s' r G F Es) as [Hd [G' [X _]]].
  split; [|split; [apply X|apply X]]. eapply denotes_ext; [apply X|apply X|apply G|exact Hd].
Qed.

(** an expression has only one value *)
Lemma C29_value_unique_lemma : forall V compat ord top ops s v r1 r2,
  @valid_order V ord -> valid_top top -> run_on compat ord top einit ops = Some s ->
  denotes s v r1 -> denotes s v r2 -> r1 = r2.
Proof.
  intros V compat ord top ops s v r1 r2 Ho Ht E. pose proof (run_on_reach compat ord top Ho Ht ops s E) as W. clear E.
  revert r1 r2. induction v as [v IH] using lt_wf_ind. intros r1 r2 H1 H2.
  assert (K : forall args f d os1 os2, nth_error (nodes s) v = Some (NOp args f d) -> Forall2 (denotes s) args os1 -> Forall2 (denotes s) args os2 -> os1 = os2).
  { intros args f d os1 os2 Hn F1. pose proof (proj2 (wf_args _ W _ _ _ _ Hn)) as Hl. clear Hn. revert os2. induction F1; intros os2 F2; inversion F2; subst; auto.
    f_equal; [eapply IH; eauto; apply Hl; now left|]. apply IHF1; auto. intros; apply Hl; now right. }
  inversion H1 as [w Hw|w args f os vs x [d Hn] HF Ha Hf|w args f os [d Hn] HF Hi]; subst;
  inversion H2 as [w2 Hw2|w2 args2 f2 os2 vs2 x2 [d2 Hn2] HF2 Ha2 Hf2|w2 args2 f2 os2 [d2 Hn2] HF2 Hi2]; subst; unfold leaf in *; try congruence.
  - rewrite Hn in Hn2. injection Hn2 as <- <- <-. rewrite (K _ _ _ _ _ Hn HF HF2) in Ha. congruence.
  - rewrite Hn in Hn2. injection Hn2 as <- <- <-. rewrite (K _ _ _ _ _ Hn HF HF2) in Ha. apply all_some_None in Hi2. congruence.
  - rewrite Hn in Hn2. injection Hn2 as <- <- <-. rewrite (K _ _ _ _ _ Hn HF HF2) in Hi. apply all_some_None in Hi. congruence.
Qed.

(** No call with existing arguments runs into undefined behaviour or fails to terminate, even
    after exceptions, clones and silent assignments. *)
Lemma C29_calls_return_lemma : forall V compat ord top ops s o,
  @valid_order V ord -> valid_top top -> run_on compat ord top einit ops = Some s ->
  callable s o -> step compat ord top s o <> Bad.
Proof.
  intros V compat ord top ops s o Ho Ht E Hc C. pose proof (run_on_reach compat ord top Ho Ht ops s E) as W.
  destruct (step_WF compat ord top Ho Ht s o W Hc) as [H _]. now rewrite C in H.
Qed.

(** While a node is frozen, assignments and evaluations leave its value alone, and eval of
    it returns that value. *)
Lemma C29_frozen_keeps_lemma : forall V compat ord top ops s v o,
  @valid_order V ord -> valid_top top -> run_on compat ord top einit ops = Some s ->
  (exists args f, operation s v args f) -> is_frozen s v = true ->
  match o with EAssign _ _ _ | EEval _ => True | _ => False end ->
  match step compat ord top s o with
  | Done s' r => val s' v = val s v /\ is_frozen s' v = true /\ (o = EEval v -> r = val s v)
  | Exc s' => val s' v = val s v /\ is_frozen s' v = true
  | Bad => True
  end.
Proof.
  intros V compat ord top ops s v o Ho Ht E [args [f [d Hv]]] F Hk. pose proof (run_on_reach compat ord top Ho Ht ops s E) as W.
  pose proof (is_op_intro _ _ _ _ _ Hv) as Hop.
  destruct o as [| |x y b|w| | |]; try contradiction; cbn [step].
  - destruct (nth_error (nodes s) x) as [[|]|] eqn:Hn; auto.
    assert (E0 : val (set_val s x y) v = val s v).
    { rewrite val_set by (rewrite (wf_vals _ W); now apply nth_error_lt in Hn). destruct (Nat.eqb_spec v x) as [->|]; [congruence|reflexivity]. }
    destruct b; [|split; auto; split; auto; discriminate].
    destruct (set_leaf_WF s x y W Hn) as [W1 _]. pose proof (notify_ok compat ord Ho (set_val s x y) x W1) as HN. pose proof (notify_keeps compat ord Ho (set_val s x y) x W1) as HL.
    destruct (notify compat ord (set_val s x y) x) as [s2 []|s2|]; cbn [obind]; auto.
    + destruct HN as [W2 [X2 _]]. rewrite (HL v Hop F). split; auto. split; [|discriminate]. rewrite (is_frozen_ext (set_val s x y) s2) by apply X2. exact F.
    + destruct HN as [W2 X2]. rewrite (HL v Hop F). split; auto. rewrite (is_frozen_ext (set_val s x y) s2) by apply X2. exact F.
  - destruct (nth_error (nodes s) w) as [[|a g e]|] eqn:Hn; auto.
    { split; auto. split; auto. intros C. injection C as ->. reflexivity. }
    destruct (is_frozen s w) eqn:Fw. { split; auto. split; auto. intros C. injection C as ->. reflexivity. }
    pose proof (flush_all_ok compat ord top Ho Ht s w W) as HO. pose proof (flush_keeps compat ord top Ho Ht (man s w) (S (length (nodes s))) s W Fw) as HK. fold (flush_all compat ord top s w) in HK.
    destruct (flush_all compat ord top s w) as [s2 []|s2|]; cbn [obind]; auto.
    + destruct HO as [_ [X _]]. rewrite (HK v Hop F). split; auto. split; [|intros C; injection C as ->; congruence]. rewrite (is_frozen_ext s s2) by apply X. exact F.
    + destruct HO as [_ [X _]]. rewrite (HK v Hop F). split; auto. rewrite (is_frozen_ext s s2) by apply X. exact F.
Qed.

(** a diamond: 2 = 0 + 0, 3 = 2 + 0, 4 = 3, evaluated after two assignments *)
Lemma C29_nonvacuous_lemma :
  let ops := [ELeaf (Some 1); ELeaf None; EOp [0; 0] sum_all; EOp [2; 0] sum_all; EOp [3] sum_all; EEval 4; EAssign 0 5 true; EAssign 0 7 true] in
  exists s s', run (fun _ _ => true) audience least einit ops = Done s tt /\ Forall plain ops /\ is_frozen s 4 = false /\
    step (fun _ _ => true) audience least s (EEval 4) = Done s' (Some 21) /\ val s 4 = Some 3.
Proof.
  cbv zeta. eexists. eexists. split; [vm_compute; reflexivity|]. split; [repeat constructor|]. repeat split.
Qed.

(** Refuted: after an assignment without notification eval still returns the old value. *)
Lemma C29_silent_assignment_refuted_lemma : exists ops (s s' : estate nat) r,
  run (fun _ _ => true) audience least einit ops = Done s tt /\ Forall no_clone ops /\
  is_frozen s 1 = false /\ step (fun _ _ => true) audience least s (EEval 1) = Done s' r /\ ~ denotes s 1 r.
Proof.
  set (ops := [ELeaf (Some 1); EOp [0] sum_all; EAssign 0 5 false]). exists ops.
  assert (R : exists s, run (fun _ _ => true) audience least einit ops = Done s tt /\ denotes s 1 (Some 5) /\ exists s', step (fun _ _ => true) audience least s (EEval 1) = Done s' (Some 1)).
  { eexists. split; [vm_compute; reflexivity|]. split; [|eexists; vm_compute; reflexivity].
    eapply (den_op _ 1 [0] sum_all [Some 5] [5] 5); [eexists; reflexivity|constructor; [refine (den_leaf _ 0 _); reflexivity|constructor]|reflexivity|reflexivity]. }
  destruct R as [s [E [D [s' Es]]]]. exists s, s', (Some 1). split; auto. split; [repeat constructor|]. split; [|split; auto].
  - vm_compute in E. injection E as <-. reflexivity.
  - intros C. assert (X : Some 1 = Some 5); [|discriminate]. eapply (C29_value_unique_lemma nat (fun _ _ => true) audience least ops); eauto using audience_valid, least_valid.
    vm_compute in E. injection E as <-. vm_compute. reflexivity.
Qed.

(** Refuted: a cloned operation node has depth 0, is recomputed before its arguments, and keeps a
    value computed from an outdated argument. Here 1 = 0 + 0, 2 = 0 + 1, 3 a clone of 2; leaf 0
    goes from 1 to 10; eval of the clone gives 12 and not 30. *)
Lemma C29_clone_refuted_lemma : exists ops (s s' : estate nat) r,
  run (fun _ _ => true) audience least einit ops = Done s tt /\
  Forall (fun o => match o with EAssign _ _ b => b = true | _ => True end) ops /\
  is_frozen s 3 = false /\ step (fun _ _ => true) audience least s (EEval 3) = Done s' r /\ r = Some 12 /\ denotes s 3 (Some 30).
Proof.
  set (ops := [ELeaf (Some 1); EOp [0; 0] sum_all; EOp [0; 1] sum_all; EEval 2; EClone 2; EAssign 0 10 true]). exists ops.
  eexists. eexists. eexists. split; [vm_compute; reflexivity|]. split; [repeat constructor|]. split; [reflexivity|]. split; [vm_compute; reflexivity|]. split; [reflexivity|].
  eapply (den_op _ 3 [0; 1] sum_all [Some 10; Some 20] [10; 20] 30); [eexists; reflexivity| |reflexivity|reflexivity].
  constructor; [refine (den_leaf _ 0 _); reflexivity|]. constructor; [|constructor].
  eapply (den_op _ 1 [0; 0] sum_all [Some 10; Some 10] [10; 10] 20); [eexists; reflexivity| |reflexivity|reflexivity].
  constructor; [refine (den_leaf _ 0 _); reflexivity|]. constructor; [refine (den_leaf _ 0 _); reflexivity|constructor].
Qed.

(** Refuted: reading the shape of a frozen node recomputes it, so its frozen value is lost. *)
Lemma C29_shape_of_frozen_refuted_lemma : exists ops (s s' : estate nat) r,
  run (fun _ _ => true) audience least einit ops = Done s tt /\ Forall plain ops /\
  is_frozen s 1 = true /\ val s 1 = Some 2 /\ step (fun _ _ => true) audience least s (EShape 1) = Done s' r /\ val s' 1 = Some 10.
Proof.
  set (ops := [ELeaf (Some 1); EOp [0; 0] sum_all; EEval 1; EFreeze 1 true; EAssign 0 5 true]). exists ops.
  eexists. eexists. eexists. split; [vm_compute; reflexivity|]. split; [repeat constructor|]. repeat split.
Qed.

(** Refuted: building a node on a frozen and a not frozen one unfreezes the frozen one (or not),
    depending on the order of the arguments. *)
Lemma C29_merge_thaws_refuted_lemma : forall b, exists (ops : list (eop nat)) s s1 s2,
  run (fun _ _ => true) audience least einit ops = Done s tt /\ is_frozen s 2 = true /\ is_frozen s 3 = false /\
  step (fun _ _ => true) audience least s (EOp [2; 3] sum_all) = Done s1 None /\ is_frozen s1 2 = true /\ is_frozen s1 3 = true /\
  step (fun _ _ => true) audience least s (EOp [3; 2] sum_all) = Done s2 None /\ is_frozen s2 2 = false /\ is_frozen s2 3 = false /\
  val s 0 = Some b.
Proof.
  intros b. exists [ELeaf (Some b); ELeaf (Some 1); EOp [0] sum_all; EOp [1] sum_all; EFreeze 2 true].
  do 3 eexists. split; [cbv; reflexivity|]. repeat split.
Qed.

(** ================= C30 ================= *)

(** In a history without freezing - with clones, silent assignments, exceptions - no single call
    computes a node twice. *)
Lemma C30_at_most_once_lemma : forall V compat ord top ops s o s',
  @valid_order V ord -> valid_top top -> run_on compat ord top einit ops = Some s -> Forall no_freeze ops -> no_freeze o ->
  (exists r, step compat ord top s o = Done s' r) \/ step compat ord top s o = Exc s' ->
  exists l, elog s' = elog s ++ l /\ NoDup l.
Proof.
  intros V compat ord top ops s o s' Ho Ht E HF Hf Ha. pose proof (run_on_reach compat ord top Ho Ht ops s E) as W.
  destruct (after_log compat ord top Ho Ht s o s' W Ha) as [l [El [_ H]]]. exists l. split; auto. apply H; auto.
  eapply (run_on_nq compat ord top Ho Ht ops einit s); eauto; [apply einit_Good|]. split; [reflexivity|intros w []].
Qed.

(** With freezing as well, no single call computes a node with several arguments twice. *)
Lemma C30_several_at_most_once_lemma : forall V compat ord top ops s o s',
  @valid_order V ord -> valid_top top -> run_on compat ord top einit ops = Some s ->
  (exists r, step compat ord top s o = Done s' r) \/ step compat ord top s o = Exc s' ->
  exists l, elog s' = elog s ++ l /\ forall v, several s' v -> count_occ Nat.eq_dec l v <= 1.
Proof.
  intros V compat ord top ops s o s' Ho Ht E Ha. pose proof (run_on_reach compat ord top Ho Ht ops s E) as W.
  destruct (after_log compat ord top Ho Ht s o s' W Ha) as [l [El [H _]]]. exists l. auto.
Qed.

(** When eval has returned, a second eval computes nothing and returns the same. *)
Lemma C30_second_eval_idle_lemma : forall V compat ord top ops s v s1 r1 s2 r2,
  @valid_order V ord -> valid_top top -> run_on compat ord top einit ops = Some s ->
  step compat ord top s (EEval v) = Done s1 r1 -> step compat ord top s1 (EEval v) = Done s2 r2 ->
  r2 = r1 /\ elog s2 = elog s1 /\ vals s2 = vals s1.
Proof.
  intros V compat ord top ops s v s1 r1 s2 r2 Ho Ht E E1 E2. pose proof (run_on_reach compat ord top Ho Ht ops s E) as W.
  cbn [step] in E1, E2. destruct (nth_error (nodes s) v) as [[|args f d]|] eqn:Hn; try discriminate.
  - injection E1 as <- <-. rewrite Hn in E2. injection E2 as <- <-. auto.
  - destruct (is_frozen s v) eqn:Fr.
    + injection E1 as <- <-. rewrite Hn, Fr in E2. injection E2 as <- <-. auto.
    + pose proof (flush_all_ok compat ord top Ho Ht s v W) as HO. destruct (flush_all compat ord top s v) as [s1' []|s1'|]; try discriminate. injection E1 as -> <-.
      destruct HO as [W1 [X [S _]]]. rewrite (x_nodes _ _ X), Hn, (is_frozen_ext s s1), Fr in E2 by apply X.
      assert (Em : man s1 v = man s v) by (unfold man; now rewrite (x_mgr _ _ X)). rewrite <- Em in S.
      destruct (settled_flush compat ord top Ht s1 v S) as [s2' [E3 [Ev El]]]. rewrite E3 in E2. cbn [obind] in E2. injection E2 as <- <-.
      split; auto. unfold val. now rewrite Ev.
Qed.

(** After eval of [v] no node that [v] is computed from, and no node computed from [v], is stale. *)
Lemma C30_nothing_stale_lemma : forall V compat ord top ops s v s' r w,
  @valid_order V ord -> valid_top top ->
  run compat ord top einit ops = Done s tt -> Forall plain ops ->
  (exists args f, operation s v args f) -> is_frozen s v = false ->
  step compat ord top s (EEval v) = Done s' r ->
  upstream s w v \/ upstream s v w -> denotes s' w (val s' w).
Proof.
  intros V compat ord top ops s v s' r w Ho Ht E HP [args [f [d Hn]]] F Es HU.
  assert (G : Good s) by (eapply run_Good; eauto; apply einit_Good).
  destruct (eval_denotes compat ord top Ho Ht s v s' r G F Es) as [_ [G' [X S]]]. specialize (S (is_op_intro _ _ _ _ _ Hn)).
  destruct (nth_error (nodes s) w) as [[|a g e]|] eqn:Hw.
  - constructor. unfold leaf. now rewrite (x_nodes _ _ X).
  - assert (Em : man s w = man s v).
    { destruct HU as [HU|HU]; [|symmetry]; [apply (upstream_man s w v (proj1 G) HU (is_op_intro _ _ _ _ _ Hw))|apply (upstream_man s v w (proj1 G) HU (is_op_intro _ _ _ _ _ Hn))]. }
    destruct G' as [W' [D' [B' I']]].
    apply (Inv_denotes s' (fun _ => True) (man s v) W').
    + intros u a' g' e' Hu HM HQ Ha. apply I' with (d := e'); auto.
    + intros u Hu. now apply (proj1 S).
    + rewrite (x_nodes _ _ X). now apply nth_error_lt in Hw.
    + intros _. rewrite <- Em. unfold man. now rewrite (x_mgr _ _ X).
    + auto.
  - exfalso. assert (Hl : v < length (nodes s)) by now apply nth_error_lt in Hn. apply nth_error_None in Hw.
    assert (K : forall a b, upstream s a b -> a < length (nodes s) /\ b < length (nodes s) \/ a = b).
    { intros a b HH. induction HH as [|b ar g a' c [e He] Hin HH IH]; [now right|]. left.
      assert (b < length (nodes s)) by now apply nth_error_lt in He. pose proof (proj2 (wf_args _ (proj1 G) _ _ _ _ He) _ Hin). destruct IH as [[]| ->]; lia. }
    destruct HU as [HU|HU]; apply K in HU; lia.
Qed.

(** hypotheses are met, with a diamond and a chain of unary nodes *)
Lemma C30_nonvacuous_lemma :
  let ops := [ELeaf (Some 1); EOp [0; 0] sum_all; EOp [1] sum_all; EOp [2] sum_all; EOp [3; 0] sum_all; EEval 4; EAssign 0 5 true] in
  exists s s', run_on (fun _ _ => true) audience least einit ops = Some s /\ Forall no_freeze ops /\
    step (fun _ _ => true) audience least s (EEval 4) = Done s' (Some 15) /\ elog s' = elog s ++ [1; 2; 3; 4].
Proof. cbv zeta. eexists. eexists. split; [vm_compute; reflexivity|]. split; [repeat constructor|]. split; vm_compute; reflexivity. Qed.

(** Refuted: a unary node created while its argument is frozen and waiting is computed twice by
    the first eval after unfreezing. *)
Lemma C30_unfreeze_refuted_lemma : exists ops (s s' : estate nat) r,
  run (fun _ _ => true) audience least einit ops = Done s tt /\ Forall plain ops /\
  step (fun _ _ => true) audience least s (EEval 2) = Done s' r /\ elog s' = elog s ++ [1; 2; 2].
Proof.
  set (ops := [ELeaf (Some 1); EOp [0; 0] sum_all; EEval 1; EFreeze 1 true; EAssign 0 2 true; EOp [1] sum_all; EFreeze 1 false]). exists ops.
  eexists. eexists. eexists. split; [vm_compute; reflexivity|]. split; [repeat constructor|]. split; vm_compute; reflexivity.
Qed.

(** ================= C31 ================= *)

(** Whatever went wrong before - exceptions out of evaluations, assignments, constructions, silent
    assignments - once an eval of [v] has returned and every leaf [v] depends on has been assigned
    again (with notification and without exception), the next eval of [v] that returns
    gives the current value. *)
Lemma C31_recovers_lemma : forall V compat ord top ops s v s1 r1 l s2 s3 r,
  @valid_order V ord -> valid_top top ->
  run_on compat ord top einit ops = Some s -> Forall no_clone ops ->
  is_frozen s v = false ->
  step compat ord top s (EEval v) = Done s1 r1 ->
  (forall x, leaf s x -> upstream s x v -> exists y, In (x, y) l) ->
  run compat ord top s1 (map (fun p => EAssign (fst p) (snd p) true) l) = Done s2 tt ->
  step compat ord top s2 (EEval v) = Done s3 r ->
  denotes s2 v r.
Proof.
  intros V compat ord top ops s v s1 r1 l s2 s3 r Ho Ht E HC F E1 HL E2 E3.
  destruct (run_on_deep compat ord top Ho Ht ops s HC E) as [W D].
  destruct (nth_error (nodes s) v) as [[|args f d]|] eqn:Hn.
  - cbn [step] in E1. rewrite Hn in E1. injection E1 as <- <-.
    destruct (assigns_ok compat ord top Ho (S (length (mgr s) + list_max (mgr s))) l s s2 (fun _ => False) W D) as [W2 [D2 [B2 [N2 _]]]]; auto.
    { right. intros b [Hb _] C. assert (man s b <= list_max (mgr s)); [|lia]. unfold man. destruct (nth_in_or_default b (mgr s) 0) as [Hi|He]; [now apply list_max_le|rewrite He; lia]. }
    { intros w a g e _ _ _ [? [_ []]]. }
    cbn [step] in E3. rewrite N2, Hn in E3. injection E3 as <- <-. constructor. unfold leaf. now rewrite N2.
  - destruct (eval_inv compat ord top _ _ _ _ _ _ _ Hn F E1) as [Ef _].
    pose proof (flush_all_ok compat ord top Ho Ht s v W) as HO. rewrite Ef in HO. destruct HO as [W1 [X1 [S1 _]]].
    assert (D1 : Deep s1) by (intros w a g e b; rewrite (x_nodes _ _ X1); apply D).
    destruct (assigns_ok compat ord top Ho (man s v) l s1 s2 (fun _ => False) W1 D1) as [W2 [D2 [B2 [N2 [M2 [F2 [R [_ [HR I2]]]]]]]]]; auto.
    { intros w a g e _ _ _ [? [_ []]]. }
    assert (Hn2 : nth_error (nodes s2) v = Some (NOp args f d)) by (rewrite N2, (x_nodes _ _ X1); exact Hn).
    assert (Fr2 : is_frozen s2 v = false) by (rewrite (is_frozen_ext s s2); auto; [now rewrite M2; apply X1|now rewrite F2; apply X1]).
    assert (Em : man s2 v = man s v) by (unfold man; rewrite M2; now rewrite (x_mgr _ _ X1)).
    destruct (eval_inv compat ord top _ _ _ _ _ _ _ Hn2 Fr2 E3) as [Ef3 ->].
    pose proof (flush_all_ok compat ord top Ho Ht s2 v W2) as HO. rewrite Ef3 in HO. destruct HO as [W3 [X3 [S3 [_ H3]]]]. rewrite Em in H3, S3.
    destruct (H3 (fun x => x = man s v) R D2) as [R3 [HR3 I3]]; auto.
    { intros _ b w Hb Hm. exfalso. eapply B2; eauto. }
    eapply denotes_ext; [apply X3|apply X3|exact W2|].
    apply (Inv_denotes s3 R3 (man s v) W3); auto.
    + intros w Hw. now apply (proj1 S3).
    + rewrite (x_nodes _ _ X3). now apply nth_error_lt in Hn2.
    + intros _. rewrite <- Em. unfold man. now rewrite (x_mgr _ _ X3).
    + intros x Hx Hu. destruct (HL x) as [y Hy].
      * unfold leaf in *. now rewrite <- (x_nodes _ _ X1), <- N2, <- (x_nodes _ _ X3).
      * clear - Hu N2 X1 X3. assert (En : nodes s3 = nodes s) by (rewrite (x_nodes _ _ X3), N2; apply X1).
        induction Hu as [|w a g c b [e He] Hin Hu IH]; [constructor|]. apply (up_step s w a g c b); auto. exists e. rewrite <- En. exact He.
      * apply HR3. exact (HR _ Hy).
  - cbn [step] in E1. rewrite Hn in E1. discriminate.
Qed.

(** An eval that keeps throwing stops doing so: if the program just calls it again, at most as
    many of the calls throw as there are nodes, then one returns. *)
Lemma C31_eventually_returns_lemma : forall V compat ord top ops s v,
  @valid_order V ord -> valid_top top -> run_on compat ord top einit ops = Some s -> v < length (nodes s) ->
  exists k s0 s1 r, k <= length (nodes s) /\ run_on compat ord top s (repeat (EEval v) k) = Some s0 /\
    step compat ord top s0 (EEval v) = Done s1 r.
Proof.
  intros V compat ord top ops s v Ho Ht E Hv. pose proof (run_on_reach compat ord top Ho Ht ops s E) as W. clear E.
  assert (Hw : work s <= length (nodes s)) by (unfold work; pose proof (qmap_len s W); pose proof (queue_len s W); lia).
  enough (X : exists k s0 s1 r, k <= work s /\ run_on compat ord top s (repeat (EEval v) k) = Some s0 /\ step compat ord top s0 (EEval v) = Done s1 r).
  { destruct X as [k [s0 [s1 [r [Hk X]]]]]. exists k, s0, s1, r. split; [lia|auto]. }
  clear Hw. remember (work s) as n eqn:En. revert s W Hv En. induction n as [n IH] using lt_wf_ind. intros s W Hv ->.
  destruct (step compat ord top s (EEval v)) as [s1 r|s1|] eqn:Es.
  - exists 0, s, s1, r. split; [lia|]. split; auto.
  - assert (X : WF s1 /\ nodes s1 = nodes s /\ work s1 < work s).
    { cbn [step] in Es. destruct (nth_error (nodes s) v) as [[|args f d]|] eqn:Hn; try discriminate. destruct (is_frozen s v); try discriminate.
      pose proof (flush_all_ok compat ord top Ho Ht s v W) as HO. destruct (flush_all compat ord top s v) as [s2 []|s2|]; try discriminate. cbn [obind] in Es. injection Es as <-.
      destruct HO as [A [B C]]. split; auto. split; auto. apply B. }
    destruct X as [W1 [N1 L1]]. destruct (IH (work s1) L1 s1 W1 ltac:(now rewrite N1) eq_refl) as [k [s0 [s2 [r [Hk [E0 E2]]]]]].
    exists (S k), s0, s2, r. split; [lia|]. split; auto. cbn [repeat run_on]. rewrite Es. exact E0.
  - exfalso. destruct (step_WF compat ord top Ho Ht s (EEval v) W Hv) as [H _]. now rewrite Es in H.
Qed.

(** hypotheses are met after a failed evaluation *)
Lemma C31_nonvacuous_lemma :
  let ops := [ELeaf (Some [1]); ELeaf (Some [2]); EOp [0; 1] padd; EEval 2; EAssign 1 [5; 6] true; EEval 2] in
  let l := [(0, [1]); (1, [6])] in
  exists s s1 s2 s3, run_on same_len audience least einit ops = Some s /\ Forall no_clone ops /\ is_frozen s 2 = false /\
    run same_len audience least einit ops = Exc s /\
    step same_len audience least s (EEval 2) = Done s1 (Some [3]) /\
    run same_len audience least s1 (map (fun p => EAssign (fst p) (snd p) true) l) = Done s2 tt /\
    step same_len audience least s2 (EEval 2) = Done s3 (Some [7]).
Proof.
  cbv zeta. do 4 eexists. split; [vm_compute; reflexivity|]. split; [repeat constructor|]. do 4 (split; [vm_compute; reflexivity|]). vm_compute; reflexivity.
Qed.

(** Refuted: after an evaluation has thrown, assigning the offending leaf a good value is not enough:
    the next eval returns, without exception, the value from before. *)
Lemma C31_refuted_lemma : exists ops (s s1 s2 : estate (list nat)),
  run same_len audience least einit ops = Exc s /\ Forall plain ops /\
  step same_len audience least s (EAssign 1 [6] true) = Done s1 None /\
  step same_len audience least s1 (EEval 2) = Done s2 (Some [3]) /\ denotes s1 2 (Some [7]).
Proof.
  exists [ELeaf (Some [1]); ELeaf (Some [2]); EOp [0; 1] padd; EEval 2; EAssign 1 [5; 6] true; EEval 2].
  eexists. eexists. eexists. split; [vm_compute; reflexivity|]. split; [repeat constructor|]. split; [vm_compute; reflexivity|]. split; [vm_compute; reflexivity|].
  eapply (den_op _ 2 [0; 1] padd [Some [1]; Some [6]] [[1]; [6]] [7]); [eexists; reflexivity| |reflexivity|reflexivity].
  constructor; [refine (den_leaf _ 0 _); reflexivity|]. constructor; [refine (den_leaf _ 1 _); reflexivity|constructor].
Qed.
