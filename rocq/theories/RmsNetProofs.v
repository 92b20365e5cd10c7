(** Proofs about training with RMSprop. *)
From Verif Require Import Common EvalModel EvalSpec EvalProofs EvalLaws UpdaterModel UpdaterSpec UpdaterProofs UpdaterLaws TrainModel TrainSpec TrainProofs CallSpec CallProofs RmsNetModel RmsNetSpec.

Section P.
Context {V : Type} (compat : V -> V -> bool).
Context (ord : list (enode V) -> nat -> list nat) (top : list (enode V) -> list nat -> option nat).
Context (Hord : valid_order ord) (Htop : valid_top top).
Context (A : arith V).
Implicit Types s t : estate V.
Local Notation step := (step compat ord top).
Local Notation run := (run compat ord top).
Local Notation upd := (upd compat ord).
Local Notation notify := (notify compat ord).
Local Notation history := (history compat ord top).

(** ---- a leaf nobody has to be told about ---- *)
Record own (m : nat) (x : V) t : Prop := { ow_leaf : leaf t m; ow_only : only m t; ow_unq : unqueued m t; ow_val : val t m = Some x }.

Lemma step_unqueued m x s o s' r : WF s -> own m x s -> avoids m o -> step s o = Done s' r -> unqueued m s'.
Proof.
  intros W [Hm HO Hq _] Ha E. unfold leaf in Hm.
  destruct o as [y|args f|v y b|v|v|v b|v]; cbn [EvalModel.step avoids] in *; try contradiction.
  - injection E as <- _. intros c Hc. cbn in Hc. assert (Hlt : c < length (nodes s)) by (apply is_op_lt; apply (wf_ops _ W), (wf_sub _ W); exact Hc).
    unfold args_of. cbn. rewrite nth_error_app1 by auto. apply (Hq c Hc).
  - destruct (length args =? 0) eqn:El; [discriminate|]. destruct (forallb (fun a => a <? length (nodes s)) args) eqn:Ef; [|discriminate]. cbn [negb orb] in E.
    destruct (join_spec s args) as [g [Hg1 Hg2]]. destruct (join s args) as [mg gm] eqn:Ej. cbn [fst snd] in *. subst mg.
    set (n := NOp args f (new_depth (nodes s) args)) in *.
    change (mkE (nodes s ++ [n]) (vals s ++ [None]) (map g (mgr s) ++ [gm]) (frozen s) (queue s) (qmap s) (elog s)) with (appended s n None g gm) in E.
    set (t := appended s n None g gm) in *.
    assert (Hmt : nth_error (nodes t) m = Some NLeaf) by (unfold t; rewrite app_old; auto; now apply nth_error_lt in Hm).
    assert (Hot : only m t).
    { intros c Hc. unfold args_of in *. destruct (nth_error (nodes t) c) as [[|a' f' d']|] eqn:Hcn; [destruct Hc| |destruct Hc].
      apply app_split in Hcn as [[Hlt Hcn]|[-> E']]; [|injection E' as -> -> ->; contradiction].
      assert (Hx := HO c). unfold args_of in Hx. rewrite Hcn in Hx. auto. }
    assert (Hqt : unqueued m t).
    { intros c Hc. assert (Hlt : c < length (nodes s)) by (apply is_op_lt; apply (wf_ops _ W), (wf_sub _ W); exact Hc). unfold args_of, t. rewrite app_old by auto. apply (Hq c Hc). }
    assert (Hop : is_op (nodes t) (length (nodes s)) = true) by (eapply is_op_intro; apply app_new).
    assert (Han : ~ In m (args_of (nodes t) (length (nodes s)))) by (unfold args_of, t; rewrite app_new; exact Ha).
    pose proof (upd_sim compat ord Hord m x (nodes t) (S (length (nodes s))) Hmt t (length (nodes s)) Hot eq_refl Hop Han Hqt) as HS.
    destruct (upd (S (length (nodes s))) t (length (nodes s))) as [s2 []|s2|]; destruct (upd (S (length (nodes s))) (set_val t m x) (length (nodes s))) as [s2' []|s2'|]; cbn in HS; try contradiction; try discriminate.
    injection E as <- _. apply HS.
  - destruct (nth_error (nodes s) v) as [[|]|] eqn:Hn; try discriminate. destruct b; [|injection E as <- _; exact Hq].
    pose proof (notify_sim compat ord Hord m x (set_val s v y) v Hm HO Ha Hq) as HS.
    destruct (notify (set_val s v y) v) as [s2 []|s2|]; destruct (notify (set_val (set_val s v y) m x) v) as [s2' []|s2'|]; cbn in HS; try contradiction; try discriminate.
    cbn [obind] in E. injection E as <- _. apply HS.
  - destruct (nth_error (nodes s) v) as [[|a f d]|] eqn:Hn; try discriminate; [now injection E as <- _|]. destruct (is_frozen s v); [now injection E as <- _|].
    pose proof (flush_all_sim compat ord top Hord Htop m x s v W Hm HO Hq) as HS.
    destruct (flush_all compat ord top s v) as [s2 u|s2|]; destruct (flush_all compat ord top (set_val s m x) v) as [s2' u'|s2'|]; cbn in HS; try contradiction; try discriminate.
    cbn [obind] in E. injection E as <- _. apply HS.
  - destruct (nth_error (nodes s) v) as [[|a f d]|] eqn:Hn; try discriminate; [now injection E as <- _|].
    pose proof (flush_all_sim compat ord top Hord Htop m x s v W Hm HO Hq) as HS.
    destruct (flush_all compat ord top s v) as [s2 u|s2|]; destruct (flush_all compat ord top (set_val s m x) v) as [s2' u'|s2'|]; cbn in HS; try contradiction; try discriminate.
    cbn [obind] in E. injection E as <- _. apply HS.
  - destruct (nth_error (nodes s) v) as [[|a f d]|] eqn:Hn; try discriminate. destruct b; [|cbn [obind] in E; injection E as <- _; exact Hq].
    pose proof (flush_all_sim compat ord top Hord Htop m x s v W Hm HO Hq) as HS.
    destruct (flush_all compat ord top s v) as [s2 u|s2|]; destruct (flush_all compat ord top (set_val s m x) v) as [s2' u'|s2'|]; cbn in HS; try contradiction; try discriminate.
    cbn [obind] in E. injection E as <- _. destruct HS as [_ [En Hq2]]. intros c Hc. cbn in Hc |- *. apply (Hq2 c Hc).
Qed.
Lemma step_only m s o s' r : WF s -> only m s -> avoids m o -> step s o = Done s' r -> only m s'.
Proof.
  intros W G4 Ha Et c Hc. unfold args_of in *. rewrite (step_nodes compat ord top Hord Htop _ _ _ _ W Et) in *.
  destruct (Nat.lt_ge_cases c (length (nodes s))) as [L|L].
  - rewrite nth_error_app1 in * by auto. apply G4. exact Hc.
  - rewrite nth_error_app2 in * by auto. destruct o as [z|args f|v z b|v|v|v b|v]; cbn in Ha; try contradiction;
      destruct (c - length (nodes s)) as [|k]; cbn in Hc; try (destruct k; cbn in Hc); try contradiction.
Qed.
Lemma step_W s o s' r : WF s -> step s o = Done s' r -> WF s'.
Proof. intros W E. pose proof (step_WF compat ord top Hord Htop s o W) as [W' _]; [apply (step_callable compat ord top); congruence|]. now rewrite E in W'. Qed.
Lemma own_step m x s o s' r : WF s -> own m x s -> avoids m o -> step s o = Done s' r -> own m x s'.
Proof.
  intros W O Ha E. pose proof O as [L O1 O2 O3]. pose proof (step_node_kept compat ord top Hord Htop s o s' r m NLeaf W E L) as L'. constructor.
  - exact L'.
  - eapply step_only; eauto.
  - eapply step_unqueued; eauto.
  - pose proof (step_sim compat ord top Hord Htop m x s o W L O1 O2 Ha) as HS. rewrite (set_same m s x O3), E in HS.
    cbn in HS. rewrite HS. rewrite val_set; [now rewrite Nat.eqb_refl|]. rewrite (wf_vals _ (step_W s o s' r W E)). now apply nth_error_lt in L'.
Qed.

(** ---- several of them ---- *)
Definition over t (ys : list (nat * V)) : estate V := fold_right (fun p t => set_val t (fst p) (snd p)) t ys.
Lemma over_nodes t ys : nodes (over t ys) = nodes t. Proof. induction ys as [|[m y] ys IH]; [reflexivity|exact IH]. Qed.
Lemma over_mgr t ys : mgr (over t ys) = mgr t. Proof. induction ys as [|[m y] ys IH]; [reflexivity|exact IH]. Qed.
Lemma over_frozen t ys : frozen (over t ys) = frozen t. Proof. induction ys as [|[m y] ys IH]; [reflexivity|exact IH]. Qed.
Lemma over_queue t ys : queue (over t ys) = queue t. Proof. induction ys as [|[m y] ys IH]; [reflexivity|exact IH]. Qed.
Lemma over_len t ys : length (vals (over t ys)) = length (vals t).
Proof. induction ys as [|[m y] ys IH]; [reflexivity|]. cbn. rewrite length_set_nth. exact IH. Qed.
Lemma over_other t ys v : ~ In v (map fst ys) -> val (over t ys) v = val t v.
Proof. induction ys as [|[m y] ys IH]; intros H; [reflexivity|]. assert (H1 : v <> m) by (intros ->; apply H; now left). assert (H2 : ~ In v (map fst ys)) by (intros C; apply H; now right). cbn [over fold_right fst snd]. rewrite val_other by exact H1. now apply IH. Qed.
Lemma over_val t ys m y : NoDup (map fst ys) -> (forall k, In k (map fst ys) -> k < length (vals t)) -> In (m, y) ys -> val (over t ys) m = Some y.
Proof.
  induction ys as [|[k z] ys IH]; intros Nd L H; [destruct H|]. cbn in Nd. apply NoDup_cons_iff in Nd as [N1 N2]. cbn [over fold_right fst snd]. fold (over t ys).
  rewrite val_set by (rewrite over_len; apply L; now left). destruct H as [H|H].
  - injection H as -> ->. now rewrite Nat.eqb_refl.
  - destruct (Nat.eqb_spec m k) as [->|Hne]; [|apply IH; auto; intros j Hj; apply L; now right]. exfalso. apply N1. apply (in_map fst) in H. exact H.
Qed.
Definition leaves t (ms : list nat) : Prop := forall m, In m ms -> leaf t m.
Lemma over_WF t ys : WF t -> leaves t (map fst ys) -> WF (over t ys).
Proof.
  intros W. induction ys as [|[m y] ys IH]; intros L; [exact W|]. cbn. apply set_leaf_WF; [apply IH; intros k Hk; apply L; now right|].
  rewrite over_nodes. apply L. now left.
Qed.
Definition put1 (ys : list (nat * V)) m z : list (nat * V) := map (fun p => if fst p =? m then (m, z) else p) ys.
Lemma put1_keys ys m z : map fst (put1 ys m z) = map fst ys.
Proof. unfold put1. rewrite map_map. apply map_ext. intros [k y]. cbn. destruct (Nat.eqb_spec k m) as [->|]; reflexivity. Qed.
Lemma set_twice {B} i (a b : B) l : set_nth i a (set_nth i b l) = set_nth i a l.
Proof. revert i. induction l as [|y l IH]; intros [|i]; cbn; auto. now rewrite IH. Qed.
Lemma put1_other ys m z : ~ In m (map fst ys) -> put1 ys m z = ys.
Proof.
  induction ys as [|[k y] ys IH]; intros H; [reflexivity|]. cbn in H |- *. destruct (Nat.eqb_spec k m) as [->|]; [tauto|]. f_equal. apply IH. tauto.
Qed.
Lemma over_put t ys m z : NoDup (map fst ys) -> In m (map fst ys) -> set_val (over t ys) m z = over t (put1 ys m z).
Proof.
  induction ys as [|[k y] ys IH]; intros Nd H; [destruct H|]. cbn in Nd. apply NoDup_cons_iff in Nd as [N1 N2]. cbn [over fold_right fst snd put1 map]. fold (over t ys). fold (put1 ys m z).
  destruct (Nat.eqb_spec k m) as [->|Hne].
  - cbn [fst snd fold_right]. rewrite put1_other by exact N1. fold (over t ys). unfold set_val. cbn. now rewrite set_twice.
  - cbn [fst snd fold_right]. fold (over t (put1 ys m z)). rewrite <- IH; auto; [|cbn in H; destruct H; [congruence|auto]]. apply set_comm. auto.
Qed.

Definition same_over {B} ys (a b : out V B) : Prop :=
  match a, b with
  | Done s1 _, Done s2 _ => s1 = over s2 ys
  | Exc s1, Exc s2 => s1 = over s2 ys
  | Bad, Bad => True
  | _, _ => False
  end.
Lemma over_step ys t o : WF t -> (forall m, In m (map fst ys) -> leaf t m /\ only m t /\ unqueued m t /\ avoids m o) ->
  same_over ys (step (over t ys) o) (step t o).
Proof.
  intros W. induction ys as [|[m y] ys IH]; intros H.
  - cbn. destruct (step t o); cbn; auto.
  - assert (H' : forall m, In m (map fst ys) -> leaf t m /\ only m t /\ unqueued m t /\ avoids m o) by (intros k Hk; apply H; now right).
    specialize (IH H'). destruct (H m (or_introl eq_refl)) as (L & O & Q & Av).
    assert (W' : WF (over t ys)) by (apply over_WF; auto; intros k Hk; apply H', Hk).
    cbn [over fold_right fst snd]. fold (over t ys).
    assert (HS : same_out m y (step (set_val (over t ys) m y) o) (step (over t ys) o)).
    { apply (step_sim compat ord top Hord Htop m y (over t ys) o W'); auto; [now rewrite over_nodes|intros c; rewrite over_nodes; apply O|].
      intros c. rewrite over_nodes, over_queue. apply Q. }
    destruct (step (set_val (over t ys) m y) o) as [a1 ?|a1|]; destruct (step (over t ys) o) as [a2 ?|a2|]; destruct (step t o) as [a3 ?|a3|]; cbn in *; try contradiction; try exact Logic.I; now subst.
Qed.

(** ---- managers and frozen managers are node numbers ---- *)
Definition bounded s : Prop := (forall m, In m (mgr s) -> m < length (nodes s)) /\ (forall m, In m (frozen s) -> m < length (nodes s)).
Lemma man_bound s v : bounded s -> v < length (mgr s) -> man s v < length (nodes s).
Proof. intros [B _] L. apply B. unfold man. now apply nth_In. Qed.
Lemma join_bound s args : WF s -> bounded s -> (forall a, In a args -> a < length (nodes s)) ->
  (forall m, In m (fst (join s args)) -> m < length (nodes s)) /\ snd (join s args) <= length (nodes s).
Proof.
  intros W B Ha. unfold join. destruct (filter (is_op (nodes s)) args) as [|a rest] eqn:E; cbn [fst snd].
  - split; [apply B|lia].
  - assert (Hm : man s a < length (nodes s)).
    { apply man_bound; auto. rewrite (wf_mgr _ W). apply Ha. assert (X : In a (filter (is_op (nodes s)) args)) by (rewrite E; now left). apply filter_In in X. apply X. }
    split; [|lia]. intros m Hin. apply in_map_iff in Hin as (k & <- & Hk). destruct (mem k (map (man s) rest)); [exact Hm|]. apply (proj1 B k Hk).
Qed.
Lemma ext_bound s s' : nodes s' = nodes s -> mgr s' = mgr s -> frozen s' = frozen s -> bounded s -> bounded s'.
Proof. unfold bounded. intros -> -> ->. auto. Qed.
Lemma flush_bound s v s2 u : WF s -> bounded s -> flush_all compat ord top s v = Done s2 u -> bounded s2.
Proof. intros W B E. pose proof (flush_all_ok compat ord top Hord Htop s v W) as HO. rewrite E in HO. destruct HO as [_ [X _]]. apply (ext_bound s s2); auto; apply X. Qed.
Lemma step_bounded s o s' r : WF s -> bounded s -> plain o -> step s o = Done s' r -> bounded s'.
Proof.
  intros W B P E. destruct o as [y|args f|v y b|v|v|v b|v]; cbn [EvalModel.step plain] in *; try contradiction.
  - injection E as <- _. destruct B as [B1 B2]. split; cbn; intros m Hm; rewrite app_length; cbn.
    + apply in_app_iff in Hm as [Hm|[<-|[]]]; [apply B1 in Hm|]; lia.
    + apply B2 in Hm. lia.
  - destruct (length args =? 0) eqn:El; [discriminate|]. destruct (forallb (fun a => a <? length (nodes s)) args) eqn:Ef; [|discriminate]. cbn [negb orb] in E.
    assert (Ha : forall a, In a args -> a < length (nodes s)) by (rewrite forallb_forall in Ef; intros a Ha; apply Nat.ltb_lt, Ef, Ha).
    destruct (join_bound s args W B Ha) as [J1 J2].
    destruct (join_spec s args) as [g [Hg1 Hg2]]. destruct (join s args) as [mg gm] eqn:Ej. cbn [fst snd] in *. subst mg.
    set (n := NOp args f (new_depth (nodes s) args)) in *.
    change (mkE (nodes s ++ [n]) (vals s ++ [None]) (map g (mgr s) ++ [gm]) (frozen s) (queue s) (qmap s) (elog s)) with (appended s n None g gm) in E.
    assert (W1 : WF (appended s n None g gm)).
    { apply app_WF; auto; cbn. split; [intros ->; discriminate|]. split; [|auto]. exact Ha. }
    assert (Hop : is_op (nodes (appended s n None g gm)) (length (nodes s)) = true) by (eapply is_op_intro; apply app_new).
    assert (Hk : length (nodes (appended s n None g gm)) - length (nodes s) <= S (length (nodes s))) by (cbn; rewrite app_length; cbn; lia).
    pose proof (upd_ok compat ord Hord _ _ _ W1 Hop Hk) as HO.
    destruct (upd (S (length (nodes s))) (appended s n None g gm) (length (nodes s))) as [s2 []|s2|]; try discriminate. injection E as <- _.
    destruct HO as [_ [X _]]. apply (ext_bound (appended s n None g gm) s2); try apply X. split; cbn; intros m Hm; rewrite app_length; cbn.
    + apply in_app_iff in Hm as [Hm|[<-|[]]]; [apply J1 in Hm|]; lia.
    + apply (proj2 B) in Hm. lia.
  - destruct (nth_error (nodes s) v) as [[|]|] eqn:Hn; try discriminate. subst b.
    destruct (set_leaf_WF s v y W Hn) as [W1 _]. pose proof (notify_ok compat ord Hord (set_val s v y) v W1) as HN.
    destruct (notify (set_val s v y) v) as [s2 []|s2|]; try discriminate. injection E as <- _. destruct HN as [_ [X _]]. apply (ext_bound (set_val s v y) s2); auto; apply X.
  - destruct (nth_error (nodes s) v) as [[|a f d]|] eqn:Hn; try discriminate; [now injection E as <- _|]. destruct (is_frozen s v); [now injection E as <- _|].
    destruct (flush_all compat ord top s v) as [s2 u|s2|] eqn:Ef; try discriminate. injection E as <- _. eapply flush_bound; eauto.
  - destruct (nth_error (nodes s) v) as [[|a f d]|] eqn:Hn; try discriminate; [now injection E as <- _|].
    destruct (flush_all compat ord top s v) as [s2 u|s2|] eqn:Ef; try discriminate. injection E as <- _. eapply flush_bound; eauto.
  - destruct (nth_error (nodes s) v) as [[|a f d]|] eqn:Hn; try discriminate. pose proof (nth_error_lt _ _ _ Hn) as Lv.
    assert (X : exists s2, bounded s2 /\ WF s2 /\ nodes s2 = nodes s /\ s' = mkE (nodes s2) (vals s2) (mgr s2) (if b then man s2 v :: frozen s2 else filter (fun m => negb (m =? man s2 v)) (frozen s2)) (queue s2) (qmap s2) (elog s2)).
    { destruct b; cbn [obind] in E.
      - pose proof (flush_all_ok compat ord top Hord Htop s v W) as HO. destruct (flush_all compat ord top s v) as [s2 u|s2|] eqn:Ef; try discriminate. cbn [obind] in E. injection E as <- _.
        exists s2. split; [eapply flush_bound; eauto|]. destruct HO as [W2 [X _]]. split; [exact W2|]. split; [apply X|reflexivity].
      - injection E as <- _. exists s. auto. }
    destruct X as (s2 & B2 & W2 & N2 & ->). split; cbn; [apply B2|]. intros m Hm. destruct b.
    + destruct Hm as [<-|Hm]; [apply man_bound; auto; rewrite (wf_mgr _ W2); now rewrite N2|now apply B2].
    + apply filter_In in Hm as [Hm _]. now apply B2.
Qed.
Lemma run_bounded ops : forall s s', WF s -> bounded s -> Forall plain ops -> run s ops = Done s' tt -> bounded s'.
Proof.
  induction ops as [|o ops IH]; intros s s' W B P E; cbn [EvalModel.run] in E; [now injection E as <-|].
  apply Forall_cons_iff in P as [P1 P]. destruct (step s o) as [s1 r|s1|] eqn:Es; try discriminate. cbn [obind] in E.
  apply (IH s1); auto; [eapply step_W; eauto|eapply step_bounded; eauto].
Qed.
Lemma h_bounded s : history s -> bounded s.
Proof. intros [ops [E P]]. apply (run_bounded ops einit s); auto; [apply einit_Good|]. split; intros m []. Qed.

(** ---- the nodes of the updaters ---- *)
Record built t (u : rms_up V) : Prop := {
  bt_own : own (rm_mom u) (rm_one u) t;
  bt_w : leaf t (rm_var u);
  bt_wn : rm_var u < rm_mom u;
  bt_gn : rm_grad u < rm_mom u;
  bt_1 : operation t (rm_mom u + 1) [rm_mom u] (fun1 (scale_d A));
  bt_2 : operation t (rm_mom u + 2) [rm_grad u] (fun1 (square A));
  bt_3 : operation t (rm_mom u + 3) [rm_mom u + 2] (fun1 (scale_1d A));
  bt_4 : operation t (rm_mom u + 4) [rm_mom u + 1; rm_mom u + 3] (fun2 (add_ A));
  bt_5 : operation t (rm_mom u + 5) [rm_grad u] (fun1 (scale_lr A));
  bt_6 : operation t (rm_mom u + 6) [rm_mom u + 4] (fun1 (sqrt_ A));
  bt_7 : operation t (rm_mom u + 7) [rm_mom u + 6] (fun1 (add_eps A));
  bt_8 : operation t (rm_mom u + 8) [rm_mom u + 5; rm_mom u + 7] (fun2 (div_ A))
}.
Record inv (L : list (rms_up V)) t (ys : list (nat * V)) : Prop := {
  iv_hist : history t;
  iv_keys : map fst ys = map rm_mom L;
  iv_nodup : NoDup (map rm_mom L);
  iv_built : forall u, In u L -> built t u;
  iv_w : forall u u', In u L -> In u' L -> rm_var u <> rm_mom u'
}.
Lemma built_step t u o t' r : WF t -> built t u -> avoids (rm_mom u) o -> step t o = Done t' r -> built t' u.
Proof.
  intros W [B0 B1 B2 B3 B4 B5 B6 B7 B8 B9 B10 B11] Ha E.
  assert (KP : forall v nd, nth_error (nodes t) v = Some nd -> nth_error (nodes t') v = Some nd) by (intros v nd; eapply (step_node_kept compat ord top Hord Htop); eauto).
  assert (KO : forall v args f, operation t v args f -> operation t' v args f) by (intros v args f [d H]; exists d; auto).
  constructor; auto; [eapply own_step; eauto|]. unfold leaf in *. auto.
Qed.
Lemma inv_W L t ys : inv L t ys -> WF t.
Proof. intros I. apply (h_Good compat ord top Hord Htop t (iv_hist _ _ _ I)). Qed.
Lemma inv_step L t ys o s' r : inv L t ys -> plain o -> (forall u, In u L -> avoids (rm_mom u) o) -> step (over t ys) o = Done s' r ->
  exists t' r', s' = over t' ys /\ step t o = Done t' r' /\ inv L t' ys.
Proof.
  intros I P Av E. pose proof (inv_W _ _ _ I) as W. pose proof I as [I1 I2 I3 I4 I5].
  assert (HS : same_over ys (step (over t ys) o) (step t o)).
  { apply over_step; [exact W|]. intros m Hm. rewrite I2 in Hm. apply in_map_iff in Hm as (u & <- & Hu). destruct (bt_own _ _ (I4 u Hu)) as [A1 A2 A3 A4]. auto. }
  rewrite E in HS. destruct (step t o) as [t' r'|t'|] eqn:Et; cbn in HS; try contradiction. exists t', r'. split; [exact HS|]. split; [reflexivity|].
  constructor; auto; [eapply (h_step compat ord top); eauto|]. intros u Hu. eapply built_step; eauto.
Qed.
Lemma inv_run ops : forall L t ys s', inv L t ys -> Forall plain ops -> (forall u, In u L -> Forall (avoids (rm_mom u)) ops) -> run (over t ys) ops = Done s' tt ->
  exists t', s' = over t' ys /\ run t ops = Done t' tt /\ inv L t' ys.
Proof.
  induction ops as [|o ops IH]; intros L t ys s' I P Av E; cbn [EvalModel.run] in *; [injection E as <-; eauto|].
  apply Forall_cons_iff in P as [P1 P]. destruct (step (over t ys) o) as [s1 r|s1|] eqn:Es; try discriminate. cbn [obind] in E.
  destruct (inv_step L t ys o s1 r I P1) as (t1 & r1 & -> & E1 & I1); auto; [intros u Hu; specialize (Av u Hu); now apply Forall_cons_iff in Av|].
  destruct (IH L t1 ys s' I1 P) as (t' & -> & E' & I'); auto; [intros u Hu; specialize (Av u Hu); now apply Forall_cons_iff in Av|].
  exists t'. rewrite E1. auto.
Qed.
Lemma own_run m x ops : forall t t', WF t -> own m x t -> Forall (avoids m) ops -> run t ops = Done t' tt -> WF t' /\ own m x t'.
Proof.
  induction ops as [|o ops IH]; intros t t' W O Av E; cbn [EvalModel.run] in *; [injection E as <-; eauto|].
  apply Forall_cons_iff in Av as [A1 Av]. destruct (step t o) as [t1 r|t1|] eqn:Es; try discriminate. cbn [obind] in E.
  apply (IH t1); auto; [eapply step_W; eauto|eapply own_step; eauto].
Qed.
Lemma rms_nodes n g one t t' : WF t -> n = length (nodes t) -> run t (rms_ops A n g one) = Done t' tt ->
  exists d1 d2 d3 d4 d5 d6 d7 d8, nodes t' = nodes t ++ [NLeaf; NOp [n] (fun1 (scale_d A)) d1; NOp [g] (fun1 (square A)) d2; NOp [n + 2] (fun1 (scale_1d A)) d3;
       NOp [n + 1; n + 3] (fun2 (add_ A)) d4; NOp [g] (fun1 (scale_lr A)) d5; NOp [n + 4] (fun1 (sqrt_ A)) d6; NOp [n + 6] (fun1 (add_eps A)) d7; NOp [n + 5; n + 7] (fun2 (div_ A)) d8].
Proof.
  intros W -> E1. unfold rms_ops in E1. set (n := length (nodes t)) in *.
  assert (R : forall l s s1, WF s -> run s (map (fun p => EOp (fst p) (snd p)) l) = Done s1 tt ->
     exists ds, length ds = length l /\ nodes s1 = nodes s ++ map (fun q => NOp (fst (fst q)) (snd (fst q)) (snd q)) (combine l ds)).
  { clear - Hord Htop. induction l as [|[a f] l IH]; intros t t1 Wt Et; cbn [map EvalModel.run] in Et; [injection Et as <-; exists []; cbn; now rewrite app_nil_r|].
    cbn [fst snd] in Et. destruct (step t (EOp a f)) as [t0 r0|t0|] eqn:Es; try discriminate. cbn [obind] in Et.
    pose proof (step_nodes compat ord top Hord Htop t _ t0 r0 Wt Es) as En.
    destruct (IH t0 t1 (step_W _ _ _ _ Wt Es) Et) as [ds [Hl Hn]]. exists (new_depth (nodes t) a :: ds). split; [cbn; lia|]. rewrite Hn, En, <- app_assoc. reflexivity. }
  cbn [EvalModel.run] in E1. destruct (step t (ELeaf (Some one))) as [t0 r0|t0|] eqn:Es; try discriminate. cbn [obind] in E1.
  pose proof (step_nodes compat ord top Hord Htop t _ t0 r0 W Es) as En. pose proof (step_W _ _ _ _ W Es) as W0.
  destruct (R [([n], fun1 (scale_d A)); ([g], fun1 (square A)); ([n + 2], fun1 (scale_1d A)); ([n + 1; n + 3], fun2 (add_ A)); ([g], fun1 (scale_lr A)); ([n + 4], fun1 (sqrt_ A)); ([n + 6], fun1 (add_eps A)); ([n + 5; n + 7], fun2 (div_ A))] t0 t' W0 E1) as [ds [Hl Hn]].
  do 8 (destruct ds as [|? ds]; [discriminate|]). destruct ds; [|discriminate]. do 8 eexists. rewrite Hn, En, <- app_assoc. reflexivity.
Qed.

(** the node on the new leaf is computed at once, even if other graphs are frozen *)
Lemma fresh_unary n x f t t0 t1 r0 r1 : WF t -> bounded t -> n = length (nodes t) -> step t (ELeaf (Some x)) = Done t0 r0 -> step t0 (EOp [n] (fun1 f)) = Done t1 r1 -> own n x t1.
Proof.
  intros W B Hn E0 E1.
  assert (W0 : WF t0) by (eapply step_W; eauto). assert (B0 : bounded t0) by exact (step_bounded t (ELeaf (Some x)) t0 r0 W B Logic.I E0).
  cbn in E0. injection E0 as <- _. set (t0 := mkE (nodes t ++ [NLeaf]) (vals t ++ [Some x]) (mgr t ++ [length (nodes t)]) (frozen t) (queue t) (qmap t) (elog t)) in *.
  assert (L0 : nth_error (nodes t0) n = Some NLeaf) by (cbn; rewrite nth_error_app2 by lia; rewrite Hn, Nat.sub_diag; reflexivity).
  assert (V0 : val t0 n = Some x) by (unfold val; cbn; rewrite nth_error_app2; rewrite (wf_vals _ W); [|lia]; rewrite Hn, Nat.sub_diag; reflexivity).
  assert (Len : length (nodes t0) = S n) by (cbn; rewrite app_length; cbn; lia).
  assert (NoDep : forall c, ~ In n (args_of (nodes t0) c)).
  { intros c Hc. unfold args_of in Hc. destruct (nth_error (nodes t0) c) as [[|a g d]|] eqn:Hcn; try contradiction.
    pose proof (nth_error_lt _ _ _ Hcn) as Lc. pose proof (proj2 (wf_args _ W0 _ _ _ _ Hcn) n Hc) as X. lia. }
  assert (Av : forall c, In c (queue t0) -> c < S n) by (intros c Hc; rewrite <- Len; apply is_op_lt; apply (wf_ops _ W0), (wf_sub _ W0); exact Hc).
  pose proof (step_nodes compat ord top Hord Htop t0 _ t1 r1 W0 E1) as N1.
  pose proof (step_node_kept compat ord top Hord Htop t0 _ t1 r1 n NLeaf W0 E1 L0) as L1.
  assert (At : args_of (nodes t1) (S n) = [n]) by (unfold args_of; rewrite N1, nth_error_app2 by lia; rewrite Len, Nat.sub_diag; reflexivity).
  assert (Ao : forall c, c < S n -> args_of (nodes t1) c = args_of (nodes t0) c) by (intros c Hc; unfold args_of; rewrite N1, nth_error_app1 by lia; reflexivity).
  assert (Ab : forall c, S n < c -> args_of (nodes t1) c = []) by (intros c Hc; unfold args_of; rewrite N1; rewrite (proj2 (nth_error_None _ _)); [reflexivity|rewrite app_length; cbn [length]; lia]).
  assert (Q : queue t1 = queue t0 /\ val t1 n = Some x).
  { cbn [EvalModel.step] in E1. rewrite Len in E1. cbn [length Nat.eqb forallb] in E1. rewrite (proj2 (Nat.ltb_lt n (S n)) (Nat.lt_succ_diag_r n)) in E1. cbn [negb orb andb] in E1.
    unfold join in E1. cbn [filter] in E1. unfold is_op at 1 in E1. rewrite L0 in E1. cbn [filter] in E1. rewrite Len in E1.
    set (nd := NOp [n] (fun1 f) (new_depth (nodes t0) [n])) in *.
    set (a := mkE (nodes t0 ++ [nd]) (vals t0 ++ [None]) (mgr t0 ++ [S n]) (frozen t0) (queue t0) (qmap t0) (elog t0)) in *.
    assert (An : nth_error (nodes a) (S n) = Some nd) by (unfold a; cbn [nodes]; rewrite nth_error_app2 by lia; rewrite Len, Nat.sub_diag; reflexivity).
    assert (Va : val a n = Some x) by (rewrite <- V0; unfold val, a; cbn [vals]; rewrite nth_error_app1; [reflexivity|rewrite (wf_vals _ W0); lia]).
    assert (Vn : val a (S n) = None) by (unfold val, a; cbn [vals]; rewrite nth_error_app2; rewrite (wf_vals _ W0); [|lia]; rewrite Len, Nat.sub_diag; reflexivity).
    assert (Fa : is_frozen a (S n) = false).
    { apply not_true_is_false. intros C. unfold is_frozen in C. apply existsb_exists in C as (m & Hm & Em). apply Nat.eqb_eq in Em. subst m.
      assert (Mn : man a (S n) = S n) by (unfold man, a; cbn [mgr]; rewrite app_nth2; rewrite (wf_mgr _ W0); [|lia]; rewrite Len, Nat.sub_diag; reflexivity).
      rewrite Mn in Hm. apply (proj2 B0) in Hm. lia. }
    cbn [EvalModel.upd] in E1. rewrite An in E1. unfold nd in E1 at 1. cbn [map all_some length Nat.ltb Nat.leb] in E1. rewrite Va, Fa in E1. cbn [all_some orb] in E1.
    assert (Fp : forward_pass compat a (S n) = Done (set_val (set_log a (S n)) (S n) (f x)) tt).
    { unfold forward_pass. rewrite An. unfold nd. change (val (set_log a (S n))) with (val a). cbn [map]. rewrite Va. cbn [all_some fun1]. now rewrite Vn. }
    rewrite Fp in E1. cbn [obind nodes set_val set_log] in E1.
    assert (Od : ord (nodes a) (S n) = []).
    { destruct (ord (nodes a) (S n)) as [|c l] eqn:El; [reflexivity|]. exfalso. assert (Hc : In c (ord (nodes a) (S n))) by (rewrite El; now left).
      apply (ord_In ord Hord) in Hc. unfold args_of in Hc. destruct (nth_error (nodes a) c) as [[|b g d]|] eqn:Hcn; try contradiction.
      unfold a in Hcn; cbn [nodes] in Hcn. destruct (Nat.lt_ge_cases c (S n)) as [Hl|Hl].
      - rewrite nth_error_app1 in Hcn by lia. pose proof (proj2 (wf_args _ W0 _ _ _ _ Hcn) _ Hc). lia.
      - rewrite nth_error_app2 in Hcn by lia. destruct (c - length (nodes t0)) as [|k] eqn:Ek; [|destruct k; discriminate]. unfold nd in Hcn. cbn in Hcn. injection Hcn as <- _ _. destruct Hc as [C|[]]. lia. }
    change (nodes (set_val (set_log a (S n)) (S n) (f x))) with (nodes a) in E1. rewrite Od in E1. cbn [notify_list] in E1. injection E1 as <- _. split; [reflexivity|].
    rewrite val_set; [|unfold a; cbn; rewrite app_length, app_length; cbn; rewrite (wf_vals _ W); lia]. destruct (Nat.eqb_spec n (S n)); [lia|exact Va]. }
  destruct Q as [Q1 Q2]. constructor; auto.
  - intros c Hc. destruct (Nat.lt_trichotomy c (S n)) as [Hl|[->|Hl]]; [rewrite Ao in Hc by auto; now apply NoDep in Hc|exact At|rewrite Ab in Hc by auto; destruct Hc].
  - intros c Hc. rewrite Q1 in Hc. specialize (Av c Hc). rewrite Ao by auto. apply NoDep.
Qed.

Lemma run_cons s o ops s' : run s (o :: ops) = Done s' tt -> exists s1 r, step s o = Done s1 r /\ run s1 ops = Done s' tt.
Proof. cbn [EvalModel.run]. destruct (step s o) as [s1 r|s1|]; try discriminate. cbn [obind]. eauto. Qed.

Lemma inv_build L t ys w g one s' : inv L t ys -> leaf t w -> ~ In w (map rm_mom L) -> g < length (nodes t) -> ~ In g (map rm_mom L) ->
  run (over t ys) (rms_ops A (length (nodes t)) g one) = Done s' tt ->
  exists t', let u := mkRms (length (nodes t)) w g one in s' = over t' ((length (nodes t), one) :: ys) /\ inv (u :: L) t' ((length (nodes t), one) :: ys).
Proof.
  intros I Lw Nw Lg Ng E. set (n := length (nodes t)) in *. pose proof (inv_W _ _ _ I) as W. pose proof I as [I1 I2 I3 I4 I5].
  assert (Km : forall u, In u L -> rm_mom u < n) by (intros u Hu; pose proof (ow_leaf _ _ _ (bt_own _ _ (I4 u Hu))) as X; unfold leaf in X; now apply nth_error_lt in X).
  destruct (inv_run (rms_ops A n g one) L t ys s' I) as (t' & -> & E' & I'); auto.
  { unfold rms_ops. repeat constructor. }
  { intros u Hu. pose proof (Km u Hu) as Hk. assert (Hg : g <> rm_mom u) by (intros ->; apply Ng; now apply in_map).
    unfold rms_ops. repeat constructor; cbn; lia. }
  destruct (rms_nodes n g one t t' W eq_refl E') as (d1 & d2 & d3 & d4 & d5 & d6 & d7 & d8 & NS).
  assert (AT : forall k, nth_error (nodes t') (n + k) = nth_error [NLeaf; NOp [n] (fun1 (scale_d A)) d1; NOp [g] (fun1 (square A)) d2; NOp [n + 2] (fun1 (scale_1d A)) d3;
       NOp [n + 1; n + 3] (fun2 (add_ A)) d4; NOp [g] (fun1 (scale_lr A)) d5; NOp [n + 4] (fun1 (sqrt_ A)) d6; NOp [n + 6] (fun1 (add_eps A)) d7; NOp [n + 5; n + 7] (fun2 (div_ A)) d8] k).
  { intros k. rewrite NS, nth_error_app2 by (unfold n; lia). f_equal. unfold n. lia. }
  assert (O : own n one t').
  { unfold rms_ops in E'. apply run_cons in E' as (t0 & r0 & S0 & E'). apply run_cons in E' as (t1 & r1 & S1 & E').
    assert (W0 : WF t0) by (eapply step_W; eauto). assert (W1 : WF t1) by (eapply step_W; eauto).
    pose proof (fresh_unary n one (scale_d A) t t0 t1 r0 r1 W (h_bounded t I1) eq_refl S0 S1) as O1.
    eapply own_run; [exact W1|exact O1| |exact E']. repeat constructor; cbn; lia. }
  assert (Ng' : ~ In n (map rm_mom L)) by (intros C; apply in_map_iff in C as (u & Eu & Hu); specialize (Km u Hu); lia).
  exists t'. cbv zeta. split.
  { cbn [over fold_right fst snd]. fold (over t' ys). symmetry. apply set_same. rewrite over_other; [apply O|]. rewrite I2. exact Ng'. }
  destruct I' as [J1 J2 J3 J4 J5]. constructor; auto.
  - cbn. now f_equal.
  - cbn. constructor; auto.
  - intros u [<-|Hu]; [|auto]. constructor; cbn; auto; try (eexists; rewrite AT; reflexivity).
    + unfold leaf in *. rewrite NS, nth_error_app1; [exact Lw|]. now apply nth_error_lt in Lw.
    + unfold leaf in Lw. now apply nth_error_lt in Lw.
  - assert (Lwn : w < n) by (unfold leaf in Lw; now apply nth_error_lt in Lw).
    intros u u' [<-|Hu] [<-|Hu']; cbn; auto; try lia.
    + intros ->. apply Nw. now apply in_map.
    + pose proof (bt_wn _ _ (I4 u Hu)). specialize (Km u Hu). lia.
Qed.
Lemma reach L s : rms_history compat ord top A L s -> exists t ys, s = over t ys /\ inv L t ys.
Proof.
  intros H. induction H as [s H|L s w g one s' H IH Lw Nw Lg Ng E|L s o s' r H IH P Av E|L s u z s' r H IH Hu E].
  - exists s, []. split; [reflexivity|]. apply Build_inv; [exact H|reflexivity|exact (NoDup_nil nat)|intros u []|intros u u' []].
  - destruct IH as (t & ys & -> & I). unfold leaf in Lw. rewrite over_nodes in *. destruct (inv_build L t ys w g one s' I Lw Nw Lg Ng E) as (t' & -> & I'). eauto.
  - destruct IH as (t & ys & -> & I). destruct (inv_step L t ys o s' r I P Av E) as (t' & r' & -> & _ & I'). eauto.
  - destruct IH as (t & ys & -> & I). cbn [EvalModel.step] in E. destruct (nth_error (nodes (over t ys)) (rm_mom u)) as [[|]|]; try discriminate. injection E as <- _.
    pose proof I as [I1 I2 I3 I4 I5]. exists t, (put1 ys (rm_mom u) z). split.
    + apply over_put; rewrite I2; [exact I3|now apply in_map].
    + constructor; auto. now rewrite put1_keys.
Qed.

(** ---- the calls while everything is frozen ---- *)
Lemma op_is t v args f : operation t v args f -> is_op (nodes t) v = true.
Proof. intros [d H]. now apply is_op_intro in H. Qed.
Lemma mom_key L t ys u : inv L t ys -> In u L -> In (rm_mom u) (map fst ys).
Proof. intros I Hu. rewrite (iv_keys _ _ _ I). now apply in_map. Qed.
Lemma key_leaf L t ys m : inv L t ys -> In m (map fst ys) -> leaf t m.
Proof. intros I Hm. rewrite (iv_keys _ _ _ I) in Hm. apply in_map_iff in Hm as (u & <- & Hu). apply (bt_own _ _ (iv_built _ _ _ I u Hu)). Qed.
Lemma op_val L t ys v : inv L t ys -> is_op (nodes t) v = true -> val (over t ys) v = val t v.
Proof. intros I Ho. apply over_other. intros C. apply (key_leaf L t ys v I) in C. unfold leaf in C. unfold is_op in Ho. rewrite C in Ho. discriminate. Qed.
Lemma frozen_eval L t ys v : inv L t ys -> is_op (nodes t) v = true -> is_frozen t v = true -> step (over t ys) (EEval v) = Done (over t ys) (val t v).
Proof.
  intros I Ho F. rewrite <- (op_val L t ys v I Ho). cbn [EvalModel.step]. rewrite over_nodes. apply is_op_inv in Ho as (a & f & d & Hn). rewrite Hn.
  rewrite (is_frozen_ext t (over t ys)) by (try apply over_mgr; apply over_frozen). now rewrite F.
Qed.

Local Notation rmsh := (rms_history compat ord top A).
Lemma one_call L t ys u s' r : inv L t ys -> rmsh L (over t ys) -> In u L -> is_frozen t (rm_mom u + 4) = true -> is_frozen t (rm_mom u + 8) = true ->
  rms_call compat ord top A (over t ys) (rm_mom u) (rm_var u) true = Done s' r ->
  exists t1 mz st y z, s' = over t1 (put1 ys (rm_mom u) mz) /\ inv L t1 (put1 ys (rm_mom u) mz) /\ rmsh L s' /\ nodes t1 = nodes t /\
    val t (rm_mom u + 4) = Some mz /\ val t (rm_mom u + 8) = Some st /\ val t (rm_var u) = Some y /\ sub_ A y st = Some z /\ val t1 (rm_var u) = Some z /\
    (forall v, leaf t v -> v <> rm_var u -> val t1 v = val t v) /\
    forall k, is_op (nodes t) k = true -> is_frozen t k = true -> is_frozen t1 k = true /\ val t1 k = val t k.
Proof.
  intros I Rh Hu F4 F8 E. pose proof I as [I1 I2 I3 I4 I5]. pose proof (I4 u Hu) as B. pose proof (inv_W _ _ _ I) as W.
  unfold rms_call, UpdaterModel.call_updater in E.
  rewrite (frozen_eval L t ys _ I (op_is _ _ _ _ (bt_4 _ _ B)) F4) in E. cbn [obind] in E.
  destruct (val t (rm_mom u + 4)) as [mz|] eqn:V4; [|discriminate]. destruct (val (over t ys) (rm_mom u)) as [y0|]; [|discriminate].
  destruct (step (over t ys) (EAssign (rm_mom u) mz false)) as [s1 r1|s1|] eqn:E1; try discriminate. cbn [obind] in E.
  assert (Rh1 : rmsh L s1) by (eapply rh_momentum; eauto).
  assert (X : s1 = over t (put1 ys (rm_mom u) mz)).
  { cbn [EvalModel.step] in E1. destruct (nth_error (nodes (over t ys)) (rm_mom u)) as [[|]|]; try discriminate. injection E1 as <- _. apply over_put; [now rewrite I2|now apply (mom_key L t ys)]. }
  subst s1. assert (I' : inv L t (put1 ys (rm_mom u) mz)) by (constructor; auto; now rewrite put1_keys).
  set (ys' := put1 ys (rm_mom u) mz) in *.
  rewrite (frozen_eval L t ys' _ I' (op_is _ _ _ _ (bt_8 _ _ B)) F8) in E. cbn [obind] in E.
  destruct (val t (rm_mom u + 8)) as [st|] eqn:V8; [|discriminate].
  assert (Kw : ~ In (rm_var u) (map fst ys')) by (unfold ys'; rewrite put1_keys, I2; intros C; apply in_map_iff in C as (u' & Eu & Hu'); apply (I5 u u' Hu Hu'); now rewrite Eu).
  rewrite over_other in E by exact Kw. destruct (val t (rm_var u)) as [y|] eqn:Vw; [|discriminate]. destruct (sub_ A y st) as [z|] eqn:Ez; [|discriminate].
  assert (Av : forall u', In u' L -> avoids (rm_mom u') (EAssign (rm_var u) z true)) by (intros u' Hu'; cbn; apply (I5 u u' Hu Hu')).
  assert (Rh2 : rmsh L s') by (eapply rh_step; [exact Rh1| |exact Av|exact E]; reflexivity).
  destruct (inv_step L t ys' (EAssign (rm_var u) z true) s' r I' eq_refl Av E) as (t1 & r2 & -> & E2 & I2').
  destruct (assign_val compat ord top Hord Htop t (rm_var u) z true t1 r2 W E2) as (Lw & V1 & N1 & U1).
  exists t1, mz, st, y, z. split; [reflexivity|]. split; [exact I2'|]. split; [exact Rh2|]. split; [exact N1|]. do 5 (split; [assumption || reflexivity|]). split; [exact U1|].
  intros k Ok Fk. destruct (h_run_on compat ord top t I1) as [ops Eo].
  pose proof (C29_frozen_keeps_lemma V compat ord top ops t k (EAssign (rm_var u) z true) Hord Htop Eo (is_op_operation t k Ok) Fk Logic.I) as K. rewrite E2 in K. tauto.
Qed.

Lemma mom_inj L u u' : NoDup (map (@rm_mom V) L) -> In u L -> In u' L -> rm_mom u = rm_mom u' -> u = u'.
Proof.
  induction L as [|x L IH]; intros Nd H H' E; [destruct H|]. cbn in Nd. apply NoDup_cons_iff in Nd as [N1 N2].
  destruct H as [->|H], H' as [->|H']; auto; exfalso; apply N1; [rewrite E|rewrite <- E]; now apply in_map.
Qed.

Lemma calls_ok L l : forall t ys s', inv L t ys -> rmsh L (over t ys) -> (forall u, In u l -> In u L /\ is_frozen t (rm_mom u + 4) = true /\ is_frozen t (rm_mom u + 8) = true) -> NoDup (map rm_var l) ->
  rms_calls compat ord top A (over t ys) (map (fun u => (rm_mom u, rm_var u)) l) = Done s' tt ->
  rmsh L s' /\ nodes s' = nodes t /\
  (forall v, leaf t v -> ~ In v (map rm_var l) -> ~ In v (map rm_mom l) -> val s' v = val (over t ys) v) /\
  forall u, In u l -> exists mz st y z, val t (rm_mom u + 4) = Some mz /\ val t (rm_mom u + 8) = Some st /\ val t (rm_var u) = Some y /\ sub_ A y st = Some z /\
    val s' (rm_var u) = Some z /\ val s' (rm_mom u) = Some mz.
Proof.
  induction l as [|u l IH]; intros t ys s' I Rh Hl Nd E.
  - injection E as <-. split; [exact Rh|]. split; [apply over_nodes|]. split; [auto|]. intros u [].
  - cbn [map rms_calls] in E. destruct (rms_call compat ord top A (over t ys) (rm_mom u) (rm_var u) true) as [s1 r1|s1|] eqn:Ec; try discriminate. cbn [obind] in E.
    destruct (Hl u (or_introl eq_refl)) as (Hu & F4 & F8).
    destruct (one_call L t ys u s1 r1 I Rh Hu F4 F8 Ec) as (t1 & mz & st & y & z & -> & I1 & Rh1 & N1 & V4 & V8 & Vw & Vz & Vz' & U1 & K1).
    cbn [map] in Nd. apply NoDup_cons_iff in Nd as [Nw Nd]. pose proof I as [J1 J2 J3 J4 J5].
    assert (Km : forall u', In u' l -> rm_mom u' <> rm_mom u).
    { intros u' Hu' C. apply (mom_inj L) in C; auto; [|now apply Hl; right]. subst u'. apply Nw. now apply in_map. }
    assert (Op : forall u', In u' L -> is_op (nodes t) (rm_mom u' + 4) = true /\ is_op (nodes t) (rm_mom u' + 8) = true).
    { intros u' Hu'. pose proof (J4 u' Hu') as B. split; [apply (op_is _ _ _ _ (bt_4 _ _ B))|apply (op_is _ _ _ _ (bt_8 _ _ B))]. }
    destruct (IH t1 (put1 ys (rm_mom u) mz) s' I1 Rh1) as (Rh' & N' & U' & D'); auto.
    { intros u' Hu'. destruct (Hl u' (or_intror Hu')) as (Hu2 & G4 & G8). destruct (Op u' Hu2) as [O4 O8]. split; [exact Hu2|]. split; [apply (K1 _ O4 G4)|apply (K1 _ O8 G8)]. }
    split; [exact Rh'|]. split; [congruence|].
    assert (Lf : forall v, leaf t v -> leaf t1 v) by (intros v; unfold leaf; now rewrite N1).
    assert (Bk : forall k, In k (map fst ys) -> k < length (vals t)).
    { intros k Hk. pose proof (key_leaf L t ys k I Hk) as Lk. unfold leaf in Lk. rewrite (wf_vals _ (inv_W _ _ _ I)). now apply nth_error_lt in Lk. }
    assert (Bk1 : forall k, In k (map fst (put1 ys (rm_mom u) mz)) -> k < length (vals t1)).
    { intros k Hk. pose proof (key_leaf L t1 _ k I1 Hk) as Lk. unfold leaf in Lk. rewrite (wf_vals _ (inv_W _ _ _ I1)). now apply nth_error_lt in Lk. }
    assert (Ov : forall v, leaf t v -> v <> rm_var u -> v <> rm_mom u -> val (over t1 (put1 ys (rm_mom u) mz)) v = val (over t ys) v).
    { intros v Lv Hw Hm. destruct (in_dec Nat.eq_dec v (map fst ys)) as [Hk|Hk].
      - apply in_map_iff in Hk as ([k x] & Ek & Hk). cbn in Ek. subst k. rewrite (over_val t ys v x); auto; [|now rewrite J2].
        apply over_val; auto; [rewrite put1_keys; now rewrite J2|]. unfold put1. apply in_map_iff. exists (v, x). cbn. apply Nat.eqb_neq in Hm. rewrite Hm. auto.
      - rewrite over_other by (now rewrite put1_keys). rewrite over_other by exact Hk. now apply U1. }
    assert (Ovw : val (over t1 (put1 ys (rm_mom u) mz)) (rm_var u) = Some z).
    { rewrite over_other; auto. rewrite put1_keys, J2. intros C; apply in_map_iff in C as (u' & Eu & Hu'). apply (J5 u u' Hu Hu'). now rewrite Eu. }
    assert (Ovm : val (over t1 (put1 ys (rm_mom u) mz)) (rm_mom u) = Some mz).
    { apply over_val; auto; [rewrite put1_keys; now rewrite J2|]. pose proof (mom_key L t ys u I Hu) as Hk. apply in_map_iff in Hk as ([k x] & Ek & Hk). cbn in Ek. subst k.
      unfold put1. apply in_map_iff. exists (rm_mom u, x). cbn. now rewrite Nat.eqb_refl. }
    assert (Lw : leaf t (rm_var u)) by apply (J4 u Hu). assert (Lm : leaf t (rm_mom u)) by apply (bt_own _ _ (J4 u Hu)).
    split.
    + intros v Lv Hv Hm. cbn in Hv, Hm. rewrite U'; [|now apply Lf|intros C; apply Hv; now right|intros C; apply Hm; now right]. apply Ov; [exact Lv|intros ->; apply Hv; now left|intros ->; apply Hm; now left].
    + intros u' [<-|Hu'].
      * exists mz, st, y, z. repeat (split; [assumption|]). split.
        -- rewrite U'; auto. intros C. apply in_map_iff in C as (u' & Eu & Hu'). apply (J5 u u' Hu); [apply Hl; now right|now rewrite Eu].
        -- rewrite U'; auto.
           ++ intros C. apply in_map_iff in C as (u' & Eu & Hu'). apply (J5 u' u); [apply Hl; now right|exact Hu|exact Eu].
           ++ intros C. apply in_map_iff in C as (u' & Eu & Hu'). now apply (Km u' Hu').
      * destruct (D' u' Hu') as (mz' & st' & y' & z' & A1 & A2 & A3 & A4 & A5 & A6). destruct (Hl u' (or_intror Hu')) as (Hu2 & G4 & G8). destruct (Op u' Hu2) as [O4 O8].
        exists mz', st', y', z'. rewrite <- (proj2 (K1 _ O4 G4)), <- (proj2 (K1 _ O8 G8)).
        assert (Hne : rm_var u' <> rm_var u) by (intros C; apply Nw; rewrite <- C; now apply in_map).
        rewrite <- (U1 (rm_var u')); auto. repeat (split; auto). apply (J4 u' Hu2).
Qed.

(** ---- what the nodes stand for ---- *)
Lemma den_mom t u r : built t u -> denotes t (rm_mom u + 4) (Some r) -> exists gv, denotes t (rm_grad u) (Some gv) /\ add_ A (scale_d A (rm_one u)) (scale_1d A (square A gv)) = Some r.
Proof.
  intros B H. destruct (den2 _ _ _ _ _ _ (bt_4 _ _ B) H) as [y1 [y2 [H1 [H2 E]]]].
  destruct (den1 _ _ _ _ _ (bt_1 _ _ B) H1) as [z1 [Hz1 ->]]. apply (den_leaf_inv _ _ _ (ow_leaf _ _ _ (bt_own _ _ B))) in Hz1. rewrite (ow_val _ _ _ (bt_own _ _ B)) in Hz1. injection Hz1 as ->.
  destruct (den1 _ _ _ _ _ (bt_3 _ _ B) H2) as [z2 [Hz2 ->]]. destruct (den1 _ _ _ _ _ (bt_2 _ _ B) Hz2) as [gv [Hg ->]]. eauto.
Qed.
Lemma den_step t u r : built t u -> denotes t (rm_mom u + 8) (Some r) -> exists gv gv' mz, denotes t (rm_grad u) (Some gv) /\ denotes t (rm_grad u) (Some gv') /\
  add_ A (scale_d A (rm_one u)) (scale_1d A (square A gv')) = Some mz /\ div_ A (scale_lr A gv) (add_eps A (sqrt_ A mz)) = Some r.
Proof.
  intros B H. destruct (den2 _ _ _ _ _ _ (bt_8 _ _ B) H) as [y1 [y2 [H1 [H2 E]]]].
  destruct (den1 _ _ _ _ _ (bt_5 _ _ B) H1) as [gv [Hg ->]]. destruct (den1 _ _ _ _ _ (bt_7 _ _ B) H2) as [z2 [Hz2 ->]]. destruct (den1 _ _ _ _ _ (bt_6 _ _ B) Hz2) as [mz [Hm ->]].
  destruct (den_mom t u mz B Hm) as [gv' [Hg' Em]]. exists gv, gv', mz. auto.
Qed.
Lemma den_upstream s t : WF t -> nodes s = nodes t -> forall v, (forall a, upstream t a v -> leaf t a -> val s a = val t a) -> forall r, denotes t v r -> denotes s v r.
Proof.
  intros W En v. induction v as [v IH] using lt_wf_ind. intros Hl r H. inversion H as [w Hw|w args f os vs x [d Hn] HF Ha Hf|w args f os [d Hn] HF Hi]; subst.
  - rewrite <- (Hl v); [|constructor|exact Hw]. constructor. unfold leaf. now rewrite En.
  - eapply den_op; [exists d; rewrite En; exact Hn| |exact Ha|exact Hf].
    pose proof (proj2 (wf_args _ W _ _ _ _ Hn)) as Hlt. assert (Up : forall a, In a args -> forall b, upstream t b a -> leaf t b -> val s b = val t b).
    { intros a Ia b Ub Lb. apply Hl; auto. eapply up_step; [exists d; exact Hn|exact Ia|exact Ub]. }
    clear - IH HF Hlt Up. induction HF; constructor.
    + apply IH; auto; [apply Hlt; now left|]. apply Up. now left.
    + apply IHHF; intros; [apply Hlt; now right|]. eapply Up; eauto. now right.
  - eapply den_undef; [exists d; rewrite En; exact Hn| |exact Hi].
    pose proof (proj2 (wf_args _ W _ _ _ _ Hn)) as Hlt. assert (Up : forall a, In a args -> forall b, upstream t b a -> leaf t b -> val s b = val t b).
    { intros a Ia b Ub Lb. apply Hl; auto. eapply up_step; [exists d; exact Hn|exact Ia|exact Ub]. }
    clear - IH HF Hlt Up. induction HF; constructor.
    + apply IH; auto; [apply Hlt; now left|]. apply Up. now left.
    + apply IHHF; intros; [apply Hlt; now right|]. eapply Up; eauto. now right.
Qed.
Lemma upd_linked t u e : WF t -> built t u -> linked t (rm_grad u) e -> linked t (rm_mom u + 4) e /\ linked t (rm_mom u + 8) e.
Proof.
  intros W B H. destruct (linked_man t _ _ W H) as (Og & _ & _). destruct (is_op_operation t _ Og) as (ag & fg & Hg).
  assert (L5 : linked t (rm_mom u + 5) e) by (apply (link_trans t _ (rm_grad u)); [apply link_sym; eapply link_arg; [exact Hg|apply (bt_5 _ _ B)|now left]|exact H]).
  assert (L8 : linked t (rm_mom u + 8) e) by (apply (link_trans t _ (rm_mom u + 5)); [apply link_sym; eapply link_arg; [apply (bt_5 _ _ B)|apply (bt_8 _ _ B)|now left]|exact L5]).
  split; [|exact L8]. apply (link_trans t _ (rm_mom u + 8)); [|exact L8].
  apply (link_trans t _ (rm_mom u + 6)); [eapply link_arg; [apply (bt_4 _ _ B)|apply (bt_6 _ _ B)|now left]|].
  apply (link_trans t _ (rm_mom u + 7)); [eapply link_arg; [apply (bt_6 _ _ B)|apply (bt_7 _ _ B)|now left]|].
  eapply link_arg; [apply (bt_7 _ _ B)|apply (bt_8 _ _ B)|right; now left].
Qed.
Lemma linked_nodes s s' a b : nodes s' = nodes s -> linked s a b -> linked s' a b.
Proof.
  intros E H. assert (Op : forall n x f, operation s n x f -> operation s' n x f) by (intros n x f [d H']; exists d; now rewrite E).
  induction H; [eapply link_self|eapply link_arg|apply link_sym|eapply link_trans]; eauto.
Qed.

Lemma rms_train_ok L s i o e l x y s' : rmsh L s -> incl l L -> NoDup (map rm_var l) -> ~ In i (map rm_mom L) -> ~ In o (map rm_mom L) ->
  (forall u, In u l -> linked s (rm_grad u) e /\ forall u', In u' L -> ~ upstream s (rm_mom u') (rm_grad u)) ->
  net_train_rms compat ord top A s i o e (map (fun u => (rm_mom u, rm_var u)) l) x y = Done s' tt ->
  rmsh L s' /\ is_frozen s' e = false /\
  exists s0, rmsh L s0 /\ fed s s0 i o x y /\ nodes s' = nodes s /\
    (forall v, leaf s v -> ~ In v (map rm_var l) -> ~ In v (map rm_mom l) -> val s' v = val s0 v) /\
    forall u, In u l -> leaf s (rm_var u) /\ leaf s (rm_mom u) /\ exists gv mz st w z, denotes s0 (rm_grad u) (Some gv) /\
      add_ A (scale_d A (rm_one u)) (scale_1d A (square A gv)) = Some mz /\ val s' (rm_mom u) = Some mz /\
      div_ A (scale_lr A gv) (add_eps A (sqrt_ A mz)) = Some st /\ val s0 (rm_var u) = Some w /\ sub_ A w st = Some z /\ val s' (rm_var u) = Some z.
Proof.
  intros Rh Hl Nd Ni No Hc E. destruct (reach L s Rh) as (t & ys & -> & I). unfold net_train_rms in E.
  assert (Avi : forall v (z : V), ~ In v (map rm_mom L) -> forall u, In u L -> avoids (rm_mom u) (EAssign v z true)) by (intros v z Nv u Hu; cbn; intros ->; apply Nv; now apply in_map).
  destruct (step (over t ys) (EAssign i x true)) as [s1 r1|s1|] eqn:E1; try discriminate. cbn [obind] in E.
  destruct (step s1 (EAssign o y true)) as [s2 r2|s2|] eqn:E2; try discriminate. cbn [obind] in E.
  destruct (step s2 (EFreeze e true)) as [s3 r3|s3|] eqn:E3; try discriminate. cbn [obind] in E.
  destruct (rms_calls compat ord top A s3 (map (fun u => (rm_mom u, rm_var u)) l)) as [s4 []|s4|] eqn:E4; try discriminate. cbn [obind] in E.
  destruct (step s4 (EFreeze e false)) as [s5 r5|s5|] eqn:E5; try discriminate. cbn [obind] in E. injection E as <-.
  assert (Rh1 : rmsh L s1) by (eapply rh_step; [exact Rh| |apply Avi, Ni|exact E1]; reflexivity).
  assert (Rh2 : rmsh L s2) by (eapply rh_step; [exact Rh1| |apply Avi, No|exact E2]; reflexivity).
  assert (Rh3 : rmsh L s3) by exact (rh_step compat ord top A L s2 (EFreeze e true) s3 r3 Rh2 Logic.I (fun _ _ => Logic.I) E3).
  destruct (inv_step L t ys (EAssign i x true) s1 r1 I eq_refl (Avi i x Ni) E1) as (t1 & q1 & -> & F1 & I1).
  destruct (inv_step L t1 ys (EAssign o y true) s2 r2 I1 eq_refl (Avi o y No) E2) as (t2 & q2 & -> & F2 & I2).
  destruct (inv_step L t2 ys (EFreeze e true) s3 r3 I2 Logic.I (fun _ _ => Logic.I) E3) as (t3 & q3 & -> & F3 & I3).
  pose proof (inv_W _ _ _ I) as W. pose proof (inv_W _ _ _ I1) as W1. pose proof (inv_W _ _ _ I2) as W2. pose proof (inv_W _ _ _ I3) as W3.
  destruct (assign_val compat ord top Hord Htop t i x true t1 q1 W F1) as (L1 & V1 & N1 & U1).
  destruct (assign_val compat ord top Hord Htop t1 o y true t2 q2 W1 F2) as (L2 & V2 & N2 & U2).
  destruct (freeze_linked compat ord top Hord Htop t2 e t3 q3 (iv_hist _ _ _ I2) F3) as (H3 & N3 & U3 & D3).
  assert (Kw : forall L t ys u, inv L t ys -> In u L -> ~ In (rm_var u) (map fst ys)).
  { intros L' t' ys' u J Hu C. rewrite (iv_keys _ _ _ J) in C. apply in_map_iff in C as (u' & Eu & Hu'). apply (iv_w _ _ _ J u u' Hu Hu'). now rewrite Eu. }
  assert (N03 : nodes t3 = nodes t) by congruence. assert (N02 : nodes t2 = nodes t) by congruence.
  assert (Lk : forall u, In u l -> linked t2 (rm_mom u + 4) e /\ linked t2 (rm_mom u + 8) e).
  { intros u Hu. apply upd_linked; [exact W2|apply (iv_built _ _ _ I2 u (Hl u Hu))|]. apply (linked_nodes (over t ys)); [now rewrite over_nodes|]. apply Hc, Hu. }
  destruct (calls_ok L l t3 ys s4 I3 Rh3) as (Rh4 & N4 & U4 & D4); auto.
  { intros u Hu. destruct (Lk u Hu) as [K4 K8]. split; [now apply Hl|]. split; [apply (D3 _ K4)|apply (D3 _ K8)]. }
  assert (Rh5 : rmsh L s5) by exact (rh_step compat ord top A L s4 (EFreeze e false) s5 r5 Rh4 Logic.I (fun _ _ => Logic.I) E5).
  assert (X5 : nodes s5 = nodes s4 /\ vals s5 = vals s4 /\ is_frozen s5 e = false).
  { clear - E5. cbn [EvalModel.step] in E5. destruct (nth_error (nodes s4) e) as [[|args f d]|] eqn:He; try discriminate. cbn [obind] in E5.
    injection E5 as <- _. split; [reflexivity|]. split; [reflexivity|]. unfold is_frozen. cbn [frozen]. unfold man at 1. cbn [mgr]. fold (man s4 e).
    apply not_true_is_false. intros C. apply existsb_exists in C as (m & Hm & Em). apply filter_In in Hm as [_ Hm]. rewrite Nat.eqb_sym, Em in Hm. discriminate. }
  destruct X5 as (N5 & V5 & F5). assert (V45 : forall v, val s5 v = val s4 v) by (intros v; unfold val; now rewrite V5).
  split; [exact Rh5|]. split; [exact F5|]. exists (over t3 ys). split; [exact Rh3|].
  assert (Ki : ~ In i (map fst ys)) by now rewrite (iv_keys _ _ _ I). assert (Ko : ~ In o (map fst ys)) by now rewrite (iv_keys _ _ _ I).
  assert (Lf : forall v, leaf (over t ys) v -> leaf t v /\ leaf t1 v /\ leaf t2 v /\ leaf t3 v) by (intros v; unfold leaf; rewrite over_nodes, N3, N2, N1; auto).
  assert (Bk : forall t, inv L t ys -> forall k, In k (map fst ys) -> k < length (vals t)).
  { intros t' J k Hk. pose proof (key_leaf L t' ys k J Hk) as Lk'. unfold leaf in Lk'. rewrite (wf_vals _ (inv_W _ _ _ J)). now apply nth_error_lt in Lk'. }
  assert (Nk : NoDup (map fst ys)) by (rewrite (iv_keys _ _ _ I); apply I).
  split.
  { split; [rewrite !over_nodes; exact N03|]. split; [rewrite over_other by exact Ko; rewrite U3; [exact V2|unfold leaf in *; now rewrite N2]|]. split.
    - intros Hne. rewrite over_other by exact Ki. rewrite U3 by (unfold leaf in *; now rewrite N2, N1). rewrite U2; [exact V1|unfold leaf in *; now rewrite N1|exact Hne].
    - intros v Lv Hi Ho. destruct (Lf v Lv) as (A0 & A1 & A2 & A3). destruct (in_dec Nat.eq_dec v (map fst ys)) as [Hk|Hk].
      + apply in_map_iff in Hk as ([k z] & Ek & Hk). cbn in Ek. subst k. now rewrite (over_val t ys v z), (over_val t3 ys v z) by auto.
      + rewrite !over_other by exact Hk. rewrite U3, U2, U1; auto. }
  split; [rewrite N5, N4, over_nodes; exact N03|]. split.
  { intros v Lv Hv Hm. rewrite V45. apply U4; auto. apply (Lf v Lv). }
  intros u Hu. pose proof (iv_built _ _ _ I3 u (Hl u Hu)) as B3. pose proof (iv_built _ _ _ I u (Hl u Hu)) as B0.
  split; [unfold leaf; rewrite over_nodes; apply B0|]. split; [unfold leaf; rewrite over_nodes; apply (bt_own _ _ B0)|].
  destruct (D4 u Hu) as (mz & st & w & z & A1 & A2 & A3 & A4 & A5 & A6). destruct (Lk u Hu) as [K4 K8].
  pose proof (proj2 (D3 _ K4)) as G4. rewrite A1 in G4. pose proof (proj2 (D3 _ K8)) as G8. rewrite A2 in G8.
  destruct (den_mom t3 u mz B3 G4) as (gv & Hg & Em). destruct (den_step t3 u st B3 G8) as (gv1 & gv2 & mz2 & Hg1 & Hg2 & Em2 & Est).
  destruct (h_run_on compat ord top t3 H3) as [ops Eo].
  assert (Un : forall a b, denotes t3 (rm_grad u) (Some a) -> denotes t3 (rm_grad u) (Some b) -> a = b).
  { intros a b Da Db. assert (X : Some a = Some b) by (eapply (C29_value_unique_lemma V compat ord top ops t3); eauto). now injection X. }
  pose proof (Un _ _ Hg1 Hg) as ->. pose proof (Un _ _ Hg2 Hg) as ->. rewrite Em in Em2. injection Em2 as <-.
  exists gv, mz, st, w, z. split.
  { apply (den_upstream (over t3 ys) t3 W3 (over_nodes t3 ys) (rm_grad u)); [|exact Hg]. intros a Ua La. apply over_other. intros C.
    rewrite (iv_keys _ _ _ I) in C. apply in_map_iff in C as (u' & Eu & Hu'). apply (proj2 (Hc u Hu) u' Hu'). rewrite Eu.
    apply (upstream_nodes t3 (over t ys)); [rewrite over_nodes; now rewrite N03|exact Ua]. }
  split; [exact Em|]. split; [rewrite V45; exact A6|]. split; [exact Est|]. split; [rewrite over_other by (apply (Kw L t3 ys u I3), Hl, Hu); exact A3|]. split; [exact A4|]. rewrite V45. exact A5.
Qed.
End P.
