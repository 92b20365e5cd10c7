(** Lemmas about the updaters: assignments to a leaf nobody is told about. *)
From Coq Require Import Permutation.
From Verif Require Import Common EvalModel EvalSpec EvalProofs EvalLaws UpdaterModel UpdaterSpec.

Section P.
Context {V : Type} (compat : V -> V -> bool).
Context (ord : list (enode V) -> nat -> list nat) (top : list (enode V) -> list nat -> option nat).
Context (Hord : valid_order ord) (Htop : valid_top top).
Implicit Types s t : estate V.
Local Notation step := (step compat ord top).
Local Notation run := (run compat ord top).
Local Notation upd := (upd compat ord).
Local Notation notify := (notify compat ord).
Local Notation flush := (flush compat ord top).
Local Notation forward_pass := (forward_pass compat).

(** the leaf and the value it silently gets *)
Context (m : nat) (x : V).

(** the nodes depending directly on [m] have no other argument *)
Definition only s : Prop := forall c, In m (args_of (nodes s) c) -> args_of (nodes s) c = [m].
Definition unqueued s : Prop := forall c, In c (queue s) -> ~ In m (args_of (nodes s) c).

Lemma set_nth_comm {B} i j (a b : B) l : i <> j -> set_nth i a (set_nth j b l) = set_nth j b (set_nth i a l).
Proof. revert i j. induction l as [|y l IH]; intros [|i] [|j] H; cbn; auto; try lia. f_equal. apply IH. lia. Qed.
Lemma set_nth_app {B} i (a : B) l r : i < length l -> set_nth i a (l ++ r) = set_nth i a l ++ r.
Proof. revert i. induction l as [|y l IH]; intros [|i] H; cbn in *; try lia; auto. f_equal. apply IH. lia. Qed.

Lemma set_comm s v y : v <> m -> set_val (set_val s m x) v y = set_val (set_val s v y) m x.
Proof. intros H. unfold set_val; cbn. f_equal. now apply set_nth_comm. Qed.

Lemma val_other s v : v <> m -> val (set_val s m x) v = val s v.
Proof. intros H. unfold val, set_val; cbn [vals]. now rewrite nth_error_set_nth_neq by auto. Qed.
Lemma map_val_other s l : ~ In m l -> map (val (set_val s m x)) l = map (val s) l.
Proof. intros H. apply map_ext_in. intros a Ha. apply val_other. intros ->. contradiction. Qed.

Definition K (ns : list (enode V)) s : Prop := nodes s = ns /\ unqueued s.
Definition sim {B} (ns : list (enode V)) (a b : out V B) : Prop :=
  match a, b with
  | Done s1 _, Done s2 _ => s1 = set_val s2 m x /\ K ns s2
  | Exc s1, Exc s2 => s1 = set_val s2 m x /\ K ns s2
  | Bad, Bad => True
  | _, _ => False
  end.
Lemma sim_bind {B C} ns (a b : out V B) (k k' : estate V -> B -> out V C) :
  sim ns a b -> (forall s r r', K ns s -> sim ns (k (set_val s m x) r) (k' s r')) -> sim ns (obind a k) (obind b k').
Proof. destruct a, b; cbn; try tauto; intros [-> H] Hk; auto. Qed.

Lemma forward_sim s v : is_op (nodes s) v = true -> nth_error (nodes s) m = Some NLeaf -> ~ In m (args_of (nodes s) v) -> unqueued s ->
  sim (nodes s) (forward_pass (set_val s m x) v) (forward_pass s v).
Proof.
  intros Ho Hm Hv Hq. assert (Hne : v <> m) by (intros ->; unfold is_op in Ho; rewrite Hm in Ho; discriminate).
  unfold EvalModel.forward_pass. cbn [nodes set_val]. unfold args_of in Hv. destruct (nth_error (nodes s) v) as [[|args f d]|]; try exact Logic.I.
  change (val (set_log (set_val s m x) v)) with (val (set_val s m x)). change (val (set_log s v)) with (val s). rewrite map_val_other by auto.
  destruct (all_some (map (val s) args)) as [vs|]; [|split; [reflexivity|split; auto]].
  destruct (f vs) as [y|]; [|split; [reflexivity|split; auto]]. rewrite val_other by auto.
  assert (E : set_val (set_log (set_val s m x) v) v y = set_val (set_val (set_log s v) v y) m x) by exact (set_comm (set_log s v) v y Hne).
  destruct (val s v) as [o|]; [destruct (compat y o)|]; (split; [try exact E; reflexivity|split; auto]).
Qed.

Lemma notify_list_sim k l ns : (forall s v, nodes s = ns -> is_op ns v = true -> ~ In m (args_of ns v) -> unqueued s ->
    sim ns (upd k (set_val s m x) v) (upd k s v)) ->
  forall s, nodes s = ns -> unqueued s -> (forall c, In c l -> is_op ns c = true /\ ~ In m (args_of ns c)) ->
  sim ns (notify_list (upd k) l (set_val s m x)) (notify_list (upd k) l s).
Proof.
  intros IH. induction l as [|c l IHl]; intros s En Hq Hl; cbn [notify_list]; [split; [reflexivity|split; auto]|].
  destruct (Hl c (or_introl eq_refl)) as [Ho Hc]. apply sim_bind; [apply IH; auto|].
  intros s1 [] [] [En1 Hq1]. apply IHl; auto. intros; apply Hl; now right.
Qed.

Lemma dep_facts ns v c s : nodes s = ns -> only s -> v <> m -> In c (ord ns v) -> is_op ns c = true /\ ~ In m (args_of ns c).
Proof.
  intros <- H Hne Hc. apply (ord_In ord Hord) in Hc. split.
  - unfold args_of in Hc. unfold is_op. destruct (nth_error (nodes s) c) as [[|a f d]|]; auto; destruct Hc.
  - intros C. rewrite (H c C) in Hc. destruct Hc as [C'|[]]. congruence.
Qed.

Lemma upd_sim ns k : nth_error ns m = Some NLeaf -> forall s v, only s -> nodes s = ns -> is_op ns v = true -> ~ In m (args_of ns v) -> unqueued s ->
    sim ns (upd k (set_val s m x) v) (upd k s v).
Proof.
  intros Hm. induction k as [|k IH]; intros s v HO En Ho Hv Hq; [exact Logic.I|]. cbn [EvalModel.upd]. cbn [nodes set_val]. rewrite En.
  assert (Hv' := Hv). unfold args_of in Hv'. destruct (nth_error ns v) as [[|args f d]|] eqn:Hn; try exact Logic.I.
  rewrite map_val_other by auto. destruct (all_some (map (val s) args)) as [vs|]; [|split; [reflexivity|split; auto]].
  change (is_frozen (set_val s m x) v) with (is_frozen s v). destruct (is_frozen s v || (1 <? length args)).
  - unfold add_update. cbn [qmap set_val]. destruct (mem v (qmap s)); [split; [reflexivity|split; auto]|].
    split; [reflexivity|]. split; auto. intros c [<-|Hc]; [cbn; rewrite En; exact Hv|now apply Hq].
  - assert (F := forward_sim s v). rewrite En in F. specialize (F Ho Hm Hv Hq). apply sim_bind; [exact F|].
    intros s1 [] [] [En1 Hq1]. cbn [nodes set_val]. rewrite En1. assert (HO1 : only s1) by (intros c; rewrite En1, <- En; apply HO).
    assert (Hne : v <> m) by (intros ->; congruence).
    apply notify_list_sim; auto.
    + intros s2 w E2 Hw Hw' Hq2. apply IH; auto. intros c. rewrite E2, <- En. apply HO.
    + intros c Hc. eapply dep_facts; eauto.
Qed.

Lemma notify_sim s v : nth_error (nodes s) m = Some NLeaf -> only s -> v <> m -> unqueued s -> sim (nodes s) (notify (set_val s m x) v) (notify s v).
Proof.
  intros Hm HO Hne Hq. unfold EvalModel.notify. cbn [nodes set_val]. apply notify_list_sim; auto.
  - intros s2 w E2 Hw Hw' Hq2. apply upd_sim; auto. intros c. rewrite E2. apply HO.
  - intros c Hc. eapply dep_facts; eauto.
Qed.

Lemma flush_sim g k : forall s, WF s -> nth_error (nodes s) m = Some NLeaf -> only s -> unqueued s -> sim (nodes s) (flush k (set_val s m x) g) (flush k s g).
Proof.
  induction k as [|k IH]; intros s W Hm HO Hq; [exact Logic.I|]. cbn [EvalModel.flush]. cbn [nodes queue qmap set_val].
  change (man (set_val s m x)) with (man s). pose proof (Htop (nodes s) (filter (fun v => man s v =? g) (queue s))) as HT.
  destruct (top (nodes s) (filter (fun v => man s v =? g) (queue s))) as [v|]; [|split; [reflexivity|split; auto]].
  destruct HT as [Hin _]. apply filter_In in Hin as [Hin _].
  pose proof (wf_ops _ W _ (wf_sub _ W _ Hin)) as Ho. pose proof Ho as Ho'. apply is_op_inv in Ho as [args [f [d Hn]]].
  pose proof (wf_good _ W _ _ _ _ Hn Hin) as Hg. destruct (all_some (map (val s) args)) as [vs|] eqn:Ha; [|congruence].
  pose proof (WF_pop s v W) as W0.
  change (set_queue (set_val s m x) (filter (fun x => negb (x =? v)) (queue s)) (qmap s)) with (set_val (set_queue s (filter (fun x => negb (x =? v)) (queue s)) (qmap s)) m x).
  set (s0 := set_queue s (filter (fun x => negb (x =? v)) (queue s)) (qmap s)) in *.
  assert (Hq0 : unqueued s0) by (intros c Hc; apply filter_In in Hc as [Hc _]; now apply Hq).
  assert (Hne : v <> m) by (intros ->; congruence).
  pose proof (forward_sim s0 v Ho' Hm (Hq v Hin) Hq0) as F. change (nodes s0) with (nodes s) in F.
  pose proof (forward_ok compat s0 v args f d vs W0 Hn Ha) as HF.
  destruct (forward_pass s0 v) as [s1 []|s1|]; destruct (forward_pass (set_val s0 m x) v) as [s1' []|s1'|]; cbn [obind]; try contradiction; try exact F.
  destruct F as [-> [En1 Hq1]]. destruct HF as [y [-> _]].
  assert (W1 : WF (set_val (set_log s0 v) v y)) by (eapply (set_val_WF compat (set_log s0 v)); [now apply set_log_WF|exact Hn|change (val (set_log s0 v)) with (val s); congruence]).
  set (s1 := set_val (set_log s0 v) v y) in *.
  assert (N := notify_sim s1 v Hm HO Hne Hq1). pose proof (notify_ok compat ord Hord s1 v W1) as HN. change (nodes s1) with (nodes s) in N.
  destruct (notify s1 v) as [s2 []|s2|]; destruct (notify (set_val s1 m x) v) as [s2' []|s2'|]; cbn [obind]; try contradiction; try exact N.
  destruct N as [-> [En2 Hq2]]. destruct HN as [W2 _].
  rewrite <- En2. apply IH; auto; [now rewrite En2|]. intros c. rewrite En2. apply HO.
Qed.
Lemma flush_all_sim s v : WF s -> nth_error (nodes s) m = Some NLeaf -> only s -> unqueued s -> sim (nodes s) (flush_all compat ord top (set_val s m x) v) (flush_all compat ord top s v).
Proof. intros. unfold flush_all. cbn [nodes set_val]. change (man (set_val s m x) v) with (man s v). now apply flush_sim. Qed.

Definition same_out {B} (a b : out V B) : Prop :=
  match a, b with
  | Done s1 _, Done s2 _ => s1 = set_val s2 m x
  | Exc s1, Exc s2 => s1 = set_val s2 m x
  | Bad, Bad => True
  | _, _ => False
  end.
Lemma sim_same {B} ns (a b : out V B) : sim ns a b -> same_out a b.
Proof. destruct a, b; cbn; tauto. Qed.
Lemma same_bind {B C} (a b : out V B) (k k' : estate V -> B -> out V C) :
  same_out a b -> (forall s r r', same_out (k (set_val s m x) r) (k' s r')) -> same_out (obind a k) (obind b k').
Proof. destruct a, b; cbn; try tauto; intros -> Hk; auto. Qed.

Lemma step_sim s o : WF s -> nth_error (nodes s) m = Some NLeaf -> only s -> unqueued s -> avoids m o -> same_out (step (set_val s m x) o) (step s o).
Proof.
  intros W Hm HO Hq Ha. assert (Hml : m < length (vals s)) by (rewrite (wf_vals _ W); now apply nth_error_lt in Hm).
  destruct o as [y|args f|v y b|v|v|v b|v]; cbn [EvalModel.step avoids] in *; cbn [nodes set_val]; try contradiction.
  - cbn. unfold set_val; cbn. now rewrite set_nth_app.
  - destruct (length args =? 0) eqn:El; [exact Logic.I|]. destruct (forallb (fun a => a <? length (nodes s)) args) eqn:Ef; [|exact Logic.I]. cbn [negb orb].
    change (join (set_val s m x) args) with (join s args).
    destruct (join_spec s args) as [g [Hg1 Hg2]]. destruct (join s args) as [mg gm] eqn:Ej. cbn [fst snd] in *. subst mg.
    set (n := NOp args f (new_depth (nodes s) args)) in *. cbn [nodes vals mgr frozen queue qmap elog set_val].
    set (a1 := mkE (nodes s ++ [n]) (set_nth m (Some x) (vals s) ++ [None]) (map g (mgr s) ++ [gm]) (frozen s) (queue s) (qmap s) (elog s)).
    assert (E1 : a1 = set_val (appended s n None g gm) m x) by (unfold a1, set_val, appended; cbn; now rewrite set_nth_app).
    rewrite E1.
    change (mkE (nodes s ++ [n]) (vals s ++ [None]) (map g (mgr s) ++ [gm]) (frozen s) (queue s) (qmap s) (elog s)) with (appended s n None g gm).
    set (t := appended s n None g gm) in *.
    assert (Hmt : nth_error (nodes t) m = Some NLeaf) by (unfold t; rewrite app_old; auto; now apply nth_error_lt in Hm).
    assert (Hot : only t).
    { intros c Hc. unfold args_of in *. destruct (nth_error (nodes t) c) as [[|a' f' d']|] eqn:Hcn; [destruct Hc| |destruct Hc].
      apply app_split in Hcn as [[Hlt Hcn]|[-> E]]; [|injection E as -> -> ->; contradiction].
      assert (Hx := HO c). unfold args_of in Hx. rewrite Hcn in Hx. auto. }
    assert (Hqt : unqueued t).
    { intros c Hc. assert (Hlt : c < length (nodes s)) by (apply is_op_lt; apply (wf_ops _ W), (wf_sub _ W); exact Hc). unfold args_of, t. rewrite app_old by auto. apply (Hq c Hc). }
    assert (Hop : is_op (nodes t) (length (nodes s)) = true) by (eapply is_op_intro; apply app_new).
    assert (Han : ~ In m (args_of (nodes t) (length (nodes s)))) by (unfold args_of, t; rewrite app_new; exact Ha).
    pose proof (upd_sim (nodes t) (S (length (nodes s))) Hmt t (length (nodes s)) Hot eq_refl Hop Han Hqt) as HS.
    destruct (upd (S (length (nodes s))) t (length (nodes s))) as [s2 []|s2|]; destruct (upd (S (length (nodes s))) (set_val t m x) (length (nodes s))) as [s2' []|s2'|]; cbn in HS; try contradiction; cbn.
    + apply HS.
    + destruct HS as [-> _]. reflexivity.
    + exact Logic.I.
  - destruct (nth_error (nodes s) v) as [[|]|] eqn:Hn; try exact Logic.I. rewrite set_comm by auto.
    destruct b; [|reflexivity]. apply same_bind; [|intros; reflexivity]. eapply sim_same. apply notify_sim; auto.
  - destruct (nth_error (nodes s) v) as [[|a f d]|] eqn:Hn; try exact Logic.I; [reflexivity|]. change (is_frozen (set_val s m x) v) with (is_frozen s v). destruct (is_frozen s v); [reflexivity|].
    apply same_bind; [|intros; reflexivity]. eapply sim_same. now apply flush_all_sim.
  - destruct (nth_error (nodes s) v) as [[|a f d]|] eqn:Hn; try exact Logic.I; [reflexivity|].
    apply same_bind; [|intros; reflexivity]. eapply sim_same. now apply flush_all_sim.
  - destruct (nth_error (nodes s) v) as [[|a f d]|] eqn:Hn; try exact Logic.I.
    apply same_bind; [|intros; reflexivity]. destruct b; [|reflexivity]. eapply sim_same. now apply flush_all_sim.
Qed.
End P.
