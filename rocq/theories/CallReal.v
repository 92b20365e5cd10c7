(** Every expression can be built as a graph, and calling training functions on it returns:
    the hypotheses of C62 can be met. *)
From Verif Require Import Common EvalModel EvalSpec EvalProofs EvalLaws UpdaterModel UpdaterSpec UpdaterProofs UpdaterLaws TrainModel TrainSpec TrainProofs CallModel CallSpec CallProofs.

Section P.
Context {V : Type}.
Context (ord : list (enode V) -> nat -> list nat) (top : list (enode V) -> list nat -> option nat).
Context (Hord : valid_order ord) (Htop : valid_top top).
Implicit Types s t : estate V.
Local Notation compat := (fun _ _ : V => true).
Local Notation step := (step compat ord top).
Local Notation history := (history compat ord top).

Definition acyclic s : Prop := forall v args f d, nth_error (nodes s) v = Some (NOp args f d) -> forall a, In a args -> a < v.
Definition defined s : Prop := forall v, is_op (nodes s) v = true -> exists x, denotes s v (Some x).

Lemma den_unique s : acyclic s -> forall v r1 r2, denotes s v r1 -> denotes s v r2 -> r1 = r2.
Proof.
  intros W v. induction v as [v IH] using lt_wf_ind. intros r1 r2 H1 H2.
  assert (K : forall args f d os1 os2, nth_error (nodes s) v = Some (NOp args f d) -> Forall2 (denotes s) args os1 -> Forall2 (denotes s) args os2 -> os1 = os2).
  { intros args f d os1 os2 Hn F1. pose proof (W _ _ _ _ Hn) as Hl. clear Hn. revert os2. induction F1; intros os2 F2; inversion F2; subst; auto.
    f_equal; [eapply IH; eauto; apply Hl; now left|]. apply IHF1; auto. intros; apply Hl; now right. }
  assert (N : forall (l : list (option V)) vs, all_some l = Some vs -> ~ In None l).
  { induction l as [|[x|] l IHl]; intros vs E C; [destruct C| |discriminate]. destruct C as [C|C]; [discriminate|]. cbn in E. destruct (all_some l) eqn:El; [|discriminate]. exact (IHl _ eq_refl C). }
  inversion H1 as [a L1|a args f os vs x [d O1] F1 A1 X1|a args f os [d O1] F1 I1]; subst; inversion H2 as [b L2|b args2 f2 os2 vs2 x2 [d2 O2] F2 A2 X2|b args2 f2 os2 [d2 O2] F2 I2]; subst; auto; unfold leaf in *; try congruence;
    rewrite O1 in O2; injection O2 as <- <- <-; pose proof (K _ _ _ _ _ O1 F1 F2); subst os2; try congruence.
  - exfalso. eapply N; eauto.
  - exfalso. eapply N; eauto.
Qed.

Section Base.
Context (s0 : estate V) (A0 : acyclic s0) (D0 : defined s0).
Record fine s : Prop := {
  f_nodes : nodes s = nodes s0;
  f_vals : length (vals s) = length (nodes s0);
  f_mgr : mgr s = mgr s0;
  f_frozen : frozen s = frozen s0;
  f_leaf : forall v, leaf s0 v -> val s v = val s0 v;
  f_sound : forall v x, val s v = Some x -> denotes s0 v (Some x);
  f_queue : forall v args f d, nth_error (nodes s0) v = Some (NOp args f d) -> In v (queue s) -> all_some (map (val s) args) <> None;
  f_ops : forall v, In v (queue s) -> is_op (nodes s0) v = true
}.
Definition runs {A} (x : out V A) : Prop := match x with Done s _ => fine s | Exc _ => False | Bad => True end.
Lemma runs_bind {A B} (x : out V A) (k : estate V -> A -> out V B) : runs x -> (forall s a, fine s -> runs (k s a)) -> runs (obind x k).
Proof. destruct x; cbn; auto; contradiction. Qed.

Lemma all_some_none {A} (l : list (option A)) : all_some l = None -> In None l.
Proof. induction l as [|[x|] l IH]; cbn; intros H; [discriminate| |auto]. right. apply IH. destruct (all_some l); [discriminate|reflexivity]. Qed.
Lemma all_some_in {A} (l : list (option A)) vs : all_some l = Some vs -> l = map Some vs.
Proof. revert vs. induction l as [|[x|] l IH]; cbn; intros vs H; [injection H as <-; reflexivity| |discriminate]. destruct (all_some l) as [r|]; [|discriminate]. injection H as <-. cbn. f_equal. now apply IH. Qed.

Lemma pass_runs s v args f d : fine s -> nth_error (nodes s0) v = Some (NOp args f d) -> all_some (map (val s) args) <> None -> runs (forward_pass compat s v).
Proof.
  intros F Hn Ha. unfold forward_pass. rewrite (f_nodes s F), Hn. cbv zeta.
  change (map (val (set_log s v)) args) with (map (val s) args). destruct (all_some (map (val s) args)) as [vs|] eqn:Ev; [|contradiction].
  destruct (D0 v (is_op_intro _ _ _ _ _ Hn)) as [x Hx]. pose proof Hx as Hx'. inversion Hx' as [w Hw E|w args' f' os vs' x' [d' Hn'] HF Has Hf|]; subst; [unfold leaf in Hw; congruence|].
  rewrite Hn in Hn'. injection Hn' as <- <- <-. assert (Eo : os = map Some vs).
  { apply all_some_in in Ev. rewrite <- Ev. clear - HF Ev F A0. revert vs Ev. induction HF as [|a o args os Ha HF IH]; intros vs Ev; [reflexivity|]. destruct vs as [|y vs]; [discriminate|]. cbn [map] in *. injection Ev as E1 E2. f_equal; [|eapply IH; eauto].
    rewrite E1. apply (den_unique s0 A0 a); [exact Ha|]. now apply (f_sound s F). }
  assert (Ef : f vs = Some x). { rewrite Eo in Has. clear - Has Hf. assert (Q : all_some (map (@Some V) vs) = Some vs) by (clear; induction vs as [|y vs IH]; cbn; [reflexivity|now rewrite IH]). congruence. }
  rewrite Ef. assert (G : fine (set_val (set_log s v) v x)).
  { assert (Hv : v < length (vals s)) by (rewrite (f_vals s F); apply nth_error_Some; congruence).
    assert (Vv : forall u, val (set_val (set_log s v) v x) u = if u =? v then Some x else val s u).
    { intros u. unfold val, set_val, set_log. cbn [vals]. destruct (Nat.eqb_spec u v) as [->|Ne]; [now rewrite nth_error_set_nth_eq|]. now rewrite nth_error_set_nth_neq by auto. }
    constructor; cbn [nodes vals mgr frozen queue set_val set_log]; try apply F.
    - rewrite length_set_nth. apply F.
    - intros u Hu. rewrite Vv. destruct (Nat.eqb_spec u v) as [->|Ne]; [unfold leaf in Hu; congruence|]. now apply F.
    - intros u y. rewrite Vv. destruct (Nat.eqb_spec u v) as [->|Ne]; [intros [= <-]; exact Hx|]. apply F.
    - intros u args' f' d' Hu Hq C. apply all_some_none in C. apply in_map_iff in C as (a & Ca & Hi). rewrite Vv in Ca. destruct (a =? v); [discriminate|].
      apply (f_queue s F u args' f' d' Hu Hq). clear - Ca Hi. induction args' as [|b l IH]; [destruct Hi|]. cbn. destruct Hi as [->|Hi]; [now rewrite Ca|]. destruct (val s b); [|reflexivity]. now rewrite (IH Hi). }
  destruct (val (set_log s v) v); cbn; exact G.
Qed.
Lemma add_fine s v args f d : fine s -> nth_error (nodes s0) v = Some (NOp args f d) -> all_some (map (val s) args) <> None -> fine (add_update s v).
Proof.
  intros F Hn Ha. unfold add_update. destruct (mem v (qmap s)); [exact F|]. constructor; cbn [nodes vals mgr frozen queue set_queue]; try apply F.
  - intros u args' f' d' Hu [<-|Hq]; [|exact (f_queue s F u args' f' d' Hu Hq)]. rewrite Hn in Hu. injection Hu as <- <- <-. exact Ha.
  - intros u [<-|Hq]; [eapply is_op_intro; eauto|now apply F].
Qed.
Lemma list_runs up l : (forall s c, In c l -> fine s -> runs (up s c)) -> forall s, fine s -> runs (notify_list up l s).
Proof.
  induction l as [|c l IH]; intros H s F; [exact F|]. cbn [notify_list]. apply runs_bind; [apply H; [now left|exact F]|]. intros s1 _ F1. apply IH; auto. intros s2 c' Hc. apply H. now right.
Qed.
Lemma audience_op ns v c : In c (ord ns v) -> is_op ns c = true.
Proof.
  intros H. apply (Permutation.Permutation_in c (Hord ns v)) in H. unfold audience in H. apply filter_In in H as [_ H]. unfold args_of in H. unfold is_op. destruct (nth_error ns c) as [[|a f d]|]; [discriminate|reflexivity|discriminate].
Qed.
Lemma upd_runs k : forall s v, fine s -> is_op (nodes s0) v = true -> runs (upd compat ord k s v).
Proof.
  induction k as [|k IH]; intros s v F Ho; [exact Logic.I|]. cbn [upd]. rewrite (f_nodes s F). destruct (is_op_inv _ _ Ho) as (args & f & d & Hn). rewrite Hn.
  destruct (all_some (map (val s) args)) as [vs|] eqn:Ea; [|exact F]. destruct (is_frozen s v || (1 <? length args)).
  - cbn. eapply add_fine; eauto. congruence.
  - apply runs_bind; [eapply pass_runs; eauto; congruence|]. intros s1 _ F1. apply list_runs; auto. intros s2 c Hc F2. rewrite (f_nodes s1 F1) in Hc. apply audience_op in Hc. now apply IH.
Qed.
Lemma notify_runs s v : fine s -> runs (notify compat ord s v).
Proof. intros F. unfold notify. apply list_runs; auto. intros s2 c Hc F2. rewrite (f_nodes s F) in Hc. apply audience_op in Hc. now apply upd_runs. Qed.
Lemma flush_runs k : forall s m, fine s -> runs (flush compat ord top k s m).
Proof.
  induction k as [|k IH]; intros s m F; [exact Logic.I|]. cbn [flush]. pose proof (Htop (nodes s) (filter (fun v => man s v =? m) (queue s))) as T.
  destruct (top (nodes s) (filter (fun v => man s v =? m) (queue s))) as [v|].
  - destruct T as [T _]. apply filter_In in T as [T _]. pose proof (f_ops s F v T) as Ho. destruct (is_op_inv _ _ Ho) as (args & f & d & Hn).
    apply runs_bind.
    + eapply pass_runs; [|exact Hn|exact (f_queue s F v args f d Hn T)]. constructor; cbn [nodes vals mgr frozen queue set_queue]; try apply F.
      * intros u a' f' d' Hu Hq. apply filter_In in Hq as [Hq _]. exact (f_queue s F u a' f' d' Hu Hq).
      * intros u Hq. apply filter_In in Hq as [Hq _]. now apply F.
    + intros s1 _ F1. apply runs_bind; [now apply notify_runs|]. intros s2 _ F2. now apply IH.
  - cbn. constructor; cbn [nodes vals mgr frozen queue set_queue]; apply F.
Qed.
End Base.

(** a graph that has only been built *)
Record calm s : Prop := {
  c_hist : history s;
  c_def : defined s;
  c_sound : forall v x, val s v = Some x -> denotes s v (Some x);
  c_free : frozen s = []
}.
Lemma calm_WF s : calm s -> WF s.
Proof. intros C. apply (h_Good compat ord top Hord Htop s (c_hist s C)). Qed.
Lemma calm_acyclic s : calm s -> acyclic s.
Proof. intros C v args f d Hn. apply (wf_args _ (calm_WF s C) _ _ _ _ Hn). Qed.
Lemma calm_fine s : calm s -> fine s s.
Proof.
  intros C. pose proof (calm_WF s C) as W. constructor; auto; try apply W.
  - apply (c_sound s C).
  - intros v H. apply (wf_ops _ W), (wf_sub _ W), H.
Qed.
Lemma not_bad s o : history s -> callable s o -> step s o <> Bad.
Proof. intros H Hc. destruct (h_run_on compat ord top s H) as [ops E]. now apply (C29_calls_return_lemma V compat ord top ops s o Hord Htop E). Qed.

(** s' is s with more nodes *)
Definition grows s s' : Prop := (exists l, nodes s' = nodes s ++ l) /\ (forall v, leaf s v -> val s' v = val s v).
Lemma grows_node s s' v x : grows s s' -> nth_error (nodes s) v = Some x -> nth_error (nodes s') v = Some x.
Proof. intros [[l E] _] H. rewrite E. rewrite nth_error_app1; auto. apply nth_error_Some. congruence. Qed.
Lemma grows_refl s : grows s s.
Proof. split; [exists []; now rewrite app_nil_r|auto]. Qed.
Lemma grows_trans s1 s2 s3 : grows s1 s2 -> grows s2 s3 -> grows s1 s3.
Proof.
  intros G1 G2. pose proof G1 as [[l1 E1] V1]. pose proof G2 as [[l2 E2] V2]. split; [exists (l1 ++ l2); rewrite E2, E1; now rewrite app_assoc|].
  intros v Hv. rewrite V2, V1; auto. unfold leaf in *. eapply grows_node; eauto.
Qed.
Lemma grows_le s s' : grows s s' -> length (nodes s) <= length (nodes s').
Proof. intros [[l E] _]. rewrite E, app_length. lia. Qed.
Lemma grows_den s s' : grows s s' -> acyclic s -> forall v r, denotes s v r -> denotes s' v r.
Proof.
  intros G Ac v. induction v as [v IH] using lt_wf_ind. intros r H. inversion H as [w Hw|w args f os vs x [d Hn] HF Ha Hf|w args f os [d Hn] HF Hi]; subst.
  - rewrite <- (proj2 G v Hw). constructor. unfold leaf in *. eapply grows_node; eauto.
  - eapply den_op; [exists d; eapply grows_node; eauto| |exact Ha|exact Hf]. pose proof (Ac _ _ _ _ Hn) as Hl. clear Hn. clear - IH HF Hl. induction HF; constructor; auto; [apply IH; auto; apply Hl; now left|]. apply IHHF. intros; apply Hl; now right.
  - eapply den_undef; [exists d; eapply grows_node; eauto| |exact Hi]. pose proof (Ac _ _ _ _ Hn) as Hl. clear Hn. clear - IH HF Hl. induction HF; constructor; auto; [apply IH; auto; apply Hl; now left|]. apply IHHF. intros; apply Hl; now right.
Qed.

Lemma add_leaf s x : calm s -> exists s', calm s' /\ grows s s' /\ length (nodes s') = S (length (nodes s)) /\ leaf s' (length (nodes s)) /\ val s' (length (nodes s)) = Some x.
Proof.
  intros C. pose proof (calm_WF s C) as W.
  set (s' := mkE (nodes s ++ [NLeaf]) (vals s ++ [Some x]) (mgr s ++ [length (nodes s)]) (frozen s) (queue s) (qmap s) (elog s)).
  assert (E : step s (ELeaf (Some x)) = Done s' None) by reflexivity.
  assert (Vl : forall v, v < length (nodes s) -> val s' v = val s v).
  { intros v Hv. unfold val, s'. cbn [vals]. rewrite nth_error_app1; [reflexivity|]. now rewrite (wf_vals _ W). }
  assert (Vn : val s' (length (nodes s)) = Some x).
  { unfold val, s'. cbn [vals]. rewrite <- (wf_vals _ W). rewrite nth_error_app2, Nat.sub_diag by lia. reflexivity. }
  assert (G : grows s s').
  { split; [exists [NLeaf]; reflexivity|]. intros v Hv. apply Vl. apply nth_error_Some. unfold leaf in Hv. congruence. }
  assert (Ln : leaf s' (length (nodes s))) by (unfold leaf, s'; cbn [nodes]; rewrite nth_error_app2, Nat.sub_diag by lia; reflexivity).
  exists s'. split; [|split; [exact G|split; [unfold s'; cbn [nodes]; rewrite app_length; cbn; lia|auto]]].
  constructor.
  - exact (h_step compat ord top s (ELeaf (Some x)) s' None (c_hist s C) Logic.I E).
  - intros v Ho. destruct (Nat.lt_ge_cases v (length (nodes s))) as [Hv|Hv].
    + destruct (c_def s C v) as [y Hy]; [|exists y; apply (grows_den s s' G (calm_acyclic s C) v _ Hy)]. unfold is_op, s' in *. cbn [nodes] in Ho. now rewrite nth_error_app1 in Ho.
    + exfalso. unfold is_op, s' in Ho. cbn [nodes] in Ho. rewrite nth_error_app2 in Ho by exact Hv. destruct (v - length (nodes s)) as [|[|k]]; discriminate.
  - intros v y E1. destruct (Nat.lt_ge_cases v (length (nodes s))) as [Hv|Hv].
    + rewrite Vl in E1 by exact Hv. apply (grows_den s s' G (calm_acyclic s C)). now apply (c_sound s C).
    + assert (v = length (nodes s)). { apply Nat.le_antisymm; [|exact Hv]. assert (v < length (vals s')); [|unfold s' in *; cbn [vals] in *; rewrite app_length, (wf_vals _ W) in *; cbn in *; lia]. unfold val in E1. apply nth_error_Some. destruct (nth_error (vals s') v); congruence. }
      subst v. rewrite <- E1. now constructor.
  - apply (c_free s C).
Qed.

Lemma add_op s args f os vs x : calm s -> args <> [] -> (forall a, In a args -> a < length (nodes s)) -> Forall2 (denotes s) args os -> all_some os = Some vs -> f vs = Some x ->
  exists s', calm s' /\ grows s s' /\ length (nodes s') = S (length (nodes s)) /\ operation s' (length (nodes s)) args f /\ denotes s' (length (nodes s)) (Some x).
Proof.
  intros C Na Ha HF Has Hf. pose proof (calm_WF s C) as W. set (n := length (nodes s)) in *.
  assert (Cl : callable s (EOp args f)) by (split; auto). pose proof (not_bad s (EOp args f) (c_hist s C) Cl) as Nb.
  destruct (join s args) as [mg m] eqn:Ej.
  set (s0 := mkE (nodes s ++ [NOp args f (new_depth (nodes s) args)]) (vals s ++ [None]) (mg ++ [m]) (frozen s) (queue s) (qmap s) (elog s)).
  assert (Vl : forall v, val s0 v = val s v).
  { intros v. unfold val, s0. cbn [vals]. destruct (Nat.lt_ge_cases v (length (vals s))) as [Hv|Hv]; [now rewrite nth_error_app1|]. rewrite nth_error_app2 by exact Hv.
    replace (nth_error (vals s) v) with (@None (option V)) by (symmetry; now apply nth_error_None). destruct (v - length (vals s)) as [|[|k]]; reflexivity. }
  assert (G0 : grows s s0) by (split; [eexists; reflexivity|intros; apply Vl]).
  assert (On : nth_error (nodes s0) n = Some (NOp args f (new_depth (nodes s) args))) by (unfold s0, n; cbn [nodes]; rewrite nth_error_app2, Nat.sub_diag by lia; reflexivity).
  assert (Lt : forall v, v <> n -> nth_error (nodes s0) v = nth_error (nodes s) v).
  { intros v Hv. unfold s0. cbn [nodes]. destruct (Nat.lt_ge_cases v n) as [H|H]; [now rewrite nth_error_app1|]. rewrite nth_error_app2 by exact H. transitivity (@None (enode V)); [|symmetry; now apply nth_error_None]. apply nth_error_None. cbn. unfold n in *. lia. }
  assert (A0 : acyclic s0).
  { intros v args' f' d' Hn a Hi. destruct (Nat.eq_dec v n) as [->|Ne]; [rewrite On in Hn; injection Hn as <- <- <-; now apply Ha|]. rewrite Lt in Hn by exact Ne. exact (calm_acyclic s C v args' f' d' Hn a Hi). }
  assert (Dn : denotes s0 n (Some x)).
  { eapply den_op; [eexists; exact On| |exact Has|exact Hf]. clear - HF G0 C Hord Htop. clearbody s0. induction HF as [|a o l l0 H1 H2 IH]; constructor; [exact (grows_den s s0 G0 (calm_acyclic s C) _ _ H1)|exact IH]. }
  assert (D0 : defined s0).
  { intros v Ho. destruct (Nat.eq_dec v n) as [->|Ne]; [eauto|]. unfold is_op in Ho. rewrite Lt in Ho by exact Ne. destruct (c_def s C v Ho) as [y Hy]. exists y. apply (grows_den s s0 G0 (calm_acyclic s C) v _ Hy). }
  assert (F0 : fine s0 s0).
  { pose proof (calm_fine s C) as F. constructor; auto.
    - unfold s0. cbn [vals nodes]. rewrite !app_length, (wf_vals _ W). reflexivity.
    - intros v y. rewrite Vl. intros E. apply (grows_den s s0 G0 (calm_acyclic s C)). now apply (c_sound s C).
    - intros v args' f' d' Hn Hq. rewrite (map_ext _ _ Vl). destruct (Nat.eq_dec v n) as [->|Ne]; [|rewrite Lt in Hn by exact Ne; exact (f_queue s s F v args' f' d' Hn Hq)].
      exfalso. apply (f_ops s s F) in Hq. apply is_op_lt in Hq. unfold n in Hq. lia.
    - intros v Hq. pose proof (f_ops s s F v Hq) as Ho. assert (v <> n) by (apply is_op_lt in Ho; unfold n; lia). unfold is_op. now rewrite Lt. }
  pose proof (upd_runs s0 A0 D0 (S n) s0 n F0 (is_op_intro _ _ _ _ _ On)) as R.
  cbn [EvalModel.step] in Nb. destruct ((length args =? 0) || negb (forallb (fun a => a <? length (nodes s)) args)) eqn:Eb; [now destruct Nb|]. cbv zeta in Nb. rewrite Ej in Nb. fold n s0 in Nb.
  destruct (upd compat ord (S n) s0 n) as [s' u|s'|] eqn:Eu; [|destruct R|now destruct Nb]. cbn [runs] in R.
  assert (Es : step s (EOp args f) = Done s' None) by (cbn [EvalModel.step]; rewrite Eb; cbv zeta; rewrite Ej; fold n s0; now rewrite Eu).
  assert (G' : grows s s').
  { split; [exists [NOp args f (new_depth (nodes s) args)]; now rewrite (f_nodes _ _ R)|]. intros v Hv. rewrite (f_leaf _ _ R); [apply Vl|]. unfold leaf in *. eapply grows_node; eauto. }
  assert (Ex : forall v r, denotes s0 v r -> denotes s' v r).
  { apply (grows_den s0 s'); [|exact A0]. split; [exists []; rewrite (f_nodes _ _ R); now rewrite app_nil_r|]. intros v Hv. now apply (f_leaf _ _ R). }
  exists s'. split; [|split; [exact G'|split; [rewrite (f_nodes _ _ R); unfold s0; cbn [nodes]; rewrite app_length; cbn; unfold n; lia|split; [eexists; rewrite (f_nodes _ _ R); exact On|now apply Ex]]]].
  constructor.
  - exact (h_step compat ord top s (EOp args f) s' None (c_hist s C) Logic.I Es).
  - intros v Ho. rewrite (f_nodes _ _ R) in Ho. destruct (D0 v Ho) as [y Hy]. eauto.
  - intros v y E. apply Ex. now apply (f_sound _ _ R).
  - rewrite (f_frozen _ _ R). apply (c_free s C).
Qed.

(** ---- calling ---- *)
Definition fits s (c : closure V) : Prop :=
  match c with
  | KNone => True
  | KData w f => leaf s w /\ exists y z, val s w = Some y /\ f y = Ok z
  | KNode w n f => leaf s w /\ is_op (nodes s) n = true /\ exists x y z, denotes s n (Some x) /\ val s w = Some y /\ f y x = Ok z
  end.
Definition alike s t : Prop := nodes t = nodes s /\ vals t = vals s /\ mgr t = mgr s /\ frozen t = frozen s.
Lemma alike_frozen s t v : alike s t -> is_frozen t v = is_frozen s v.
Proof. intros (_ & _ & M & F). unfold is_frozen, man. now rewrite M, F. Qed.
Lemma list_frozen ns k l : forall s, nodes s = ns -> (forall c, In c l -> is_op ns c = true) -> (forall v, is_op ns v = true -> is_frozen s v = true) ->
  exists t, notify_list (upd compat ord (S k)) l s = Done t tt /\ alike s t.
Proof.
  induction l as [|c l IH]; intros s En Ho Hf; [exists s; repeat split|]. cbn [notify_list]. pose proof (Ho c (or_introl eq_refl)) as Oc. destruct (is_op_inv _ _ Oc) as (args & f & d & Hn).
  assert (X : exists t, upd compat ord (S k) s c = Done t tt /\ alike s t).
  { cbn [upd]. rewrite En, Hn. destruct (all_some (map (val s) args)); [|exists s; repeat split]. rewrite (Hf c Oc). cbn [orb]. exists (add_update s c). split; [reflexivity|]. unfold add_update. destruct (mem c (qmap s)); repeat split. }
  destruct X as (t & E & A). rewrite E. cbn [obind]. destruct (IH t) as (t2 & E2 & A2).
  - destruct A as (A & _). congruence.
  - intros c' Hc. apply Ho. now right.
  - intros v Hv. rewrite (alike_frozen s t v A). now apply Hf.
  - exists t2. split; [exact E2|]. destruct A as (A1 & B1 & C1 & D1), A2 as (A2' & B2 & C2 & D2). repeat split; congruence.
Qed.
Lemma put_runs s w z : leaf s w -> length (vals s) = length (nodes s) -> (forall v, is_op (nodes s) v = true -> is_frozen s v = true) ->
  exists t, put compat ord top s w (Ok z) = Done t tt /\ nodes t = nodes s /\ mgr t = mgr s /\ frozen t = frozen s /\ vals t = set_nth w (Some z) (vals s).
Proof.
  intros Lw Lv Hf. assert (Hw : w < length (nodes s)) by (apply nth_error_Some; unfold leaf in Lw; congruence). cbn [put EvalModel.step]. unfold leaf in Lw. rewrite Lw. unfold notify. cbn [nodes set_val].
  destruct (length (nodes s)) as [|k] eqn:El; [lia|].
  destruct (list_frozen (nodes s) k (ord (nodes s) w) (set_val s w z)) as (t & E & (A1 & A2 & A3 & A4)); [reflexivity|intros c Hc; now apply audience_op in Hc|exact Hf|].
  cbn [nodes set_val] in E. rewrite E. cbn [obind]. exists t. repeat split; assumption.
Qed.
Lemma closures_run s l : forall t, nodes t = nodes s -> length (vals t) = length (nodes s) -> (forall v, is_op (nodes s) v = true -> is_frozen t v = true) ->
  (forall n x, is_op (nodes s) n = true -> denotes s n (Some x) -> val t n = Some x) -> (forall w, In w (flat_map target l) -> val t w = val s w) ->
  NoDup (flat_map target l) -> (forall c, In c l -> fits s c) -> exists t', run_closures compat ord top t l = Done t' tt /\ nodes t' = nodes s.
Proof.
  induction l as [|c l IH]; intros t Nt Lt Ft Vt Wt Nd Hc; [exists t; auto|]. cbn [run_closures].
  assert (Pt : forall w z, leaf s w -> target c = [w] -> (exists t', obind (put compat ord top t w (Ok z)) (fun t' _ => run_closures compat ord top t' l) = Done t' tt /\ nodes t' = nodes s)).
  { intros w z Lw Ec. destruct (put_runs t w z) as (t1 & E1 & N1 & M1 & F1 & V1); [unfold leaf; now rewrite Nt|congruence|intros v Hv; apply Ft; now rewrite <- Nt|].
    rewrite E1. cbn [obind]. cbn [flat_map] in Nd, Wt. rewrite Ec in Nd, Wt. cbn [app] in Nd, Wt. apply NoDup_cons_iff in Nd as [Nw Nd].
    assert (Vn : forall v, v <> w -> val t1 v = val t v) by (intros v Hv; unfold val; rewrite V1, nth_error_set_nth_neq by auto; reflexivity).
    apply IH; [congruence|rewrite V1, length_set_nth; exact Lt| | | |exact Nd|intros c' Hc'; apply Hc; now right].
    - intros v Hv. unfold is_frozen, man. rewrite M1, F1. now apply Ft.
    - intros n x On Dn. rewrite Vn; [now apply Vt|]. intros ->. unfold is_op in On. unfold leaf in Lw. rewrite Lw in On. discriminate.
    - intros v Hv. rewrite Vn; [apply Wt; now right|]. intros ->. contradiction. }
  pose proof (Hc c (or_introl eq_refl)) as Hf. destruct c as [|w f|w n f]; cbn [fits target run_closure] in *.
  - cbn [obind]. apply IH; auto. intros c' Hc'. apply Hc. now right.
  - destruct Hf as (Lw & y & z & Ey & Ez). rewrite (Wt w) by (cbn; now left). rewrite Ey, Ez. now apply Pt.
  - destruct Hf as (Lw & On & x & y & z & Dx & Ey & Ez). cbn [EvalModel.step]. rewrite Nt. destruct (is_op_inv _ _ On) as (args & g & d & Hn). rewrite Hn, (Ft n On). cbn [obind]. rewrite (Vt n x On Dx), (Wt w) by (cbn; now left). rewrite Ey, Ez. now apply Pt.
Qed.
Lemma call_runs s e l : calm s -> is_op (nodes s) e = true -> (forall v, is_op (nodes s) v = true -> linked s v e) -> NoDup (flat_map target l) -> (forall c, In c l -> fits s c) ->
  exists s', frozen_call compat ord top s e l = Done s' tt.
Proof.
  intros C Oe Hl Nd Hf. pose proof (calm_WF s C) as W. destruct (is_op_inv _ _ Oe) as (args & f & d & Hn).
  assert (X : exists s1, step s (EFreeze e true) = Done s1 None /\ length (vals s1) = length (nodes s)).
  { pose proof (not_bad s (EFreeze e true) (c_hist s C)) as Nb. cbn [callable] in Nb. specialize (Nb (ex_intro _ args (ex_intro _ f (ex_intro _ d Hn)))). cbn [EvalModel.step] in Nb |- *. rewrite Hn in Nb |- *.
    pose proof (flush_runs s (calm_acyclic s C) (c_def s C) (S (length (nodes s))) s (man s e) (calm_fine s C)) as R. fold (flush_all compat ord top s e) in R.
    destruct (flush_all compat ord top s e) as [s1 u|s1|]; [|destruct R|now destruct Nb]. cbn [obind]. eexists. split; [reflexivity|]. cbn [vals]. apply R. }
  destruct X as (s1 & E1 & L1). destruct (freeze_linked compat ord top Hord Htop s e s1 None (c_hist s C) E1) as (H1 & N1 & U1 & D1).
  unfold frozen_call. rewrite E1. cbn [obind]. destruct (closures_run s l s1 N1 L1) as (t & E2 & N2); auto.
  - intros v Hv. apply (D1 v (Hl v Hv)).
  - intros n x On Dn. destruct (D1 n (Hl n On)) as [_ Dv]. apply (den_unique s (calm_acyclic s C) n); [|exact Dn]. apply (denotes_ext s s1 N1 U1 n W _ Dv).
  - intros w Hw. apply U1. apply in_flat_map in Hw as (c & Hc & Hw). specialize (Hf c Hc). destruct c; cbn in *; try contradiction; destruct Hw as [<-|[]]; apply Hf.
  - rewrite E2. cbn [obind EvalModel.step]. rewrite N2, Hn. cbn [obind]. eauto.
Qed.

(** one more node that uses all the operations joins them *)
Lemma glue s e (x : V) : calm s -> is_op (nodes s) e = true -> exists s', calm s' /\ grows s s' /\ is_op (nodes s') e = true /\ forall v, is_op (nodes s') v = true -> linked s' v e.
Proof.
  intros C Oe. set (args := filter (is_op (nodes s)) (seq 0 (length (nodes s)))).
  assert (Ia : forall v, is_op (nodes s) v = true -> In v args) by (intros v Hv; apply filter_In; split; [apply in_seq; apply is_op_lt in Hv; lia|exact Hv]).
  assert (X : exists os vs, Forall2 (denotes s) args os /\ all_some os = Some vs).
  { assert (Ha : forall v, In v args -> is_op (nodes s) v = true) by (intros v Hv; now apply filter_In in Hv). clear - Ha C. induction args as [|a l IH]; [exists [], []; split; [constructor|reflexivity]|].
    destruct (c_def s C a) as [y Hy]; [apply Ha; now left|]. destruct IH as (os & vs & F & E); [intros v Hv; apply Ha; now right|]. exists (Some y :: os), (y :: vs). split; [now constructor|]. cbn. now rewrite E. }
  destruct X as (os & vs & F & E). destruct (add_op s args (fun _ => Some x) os vs x C) as (s' & C' & G & Ln & On & _); auto.
  { intros Q. specialize (Ia e Oe). rewrite Q in Ia. destruct Ia. }
  { intros a Hi. apply filter_In in Hi as [Hi _]. apply in_seq in Hi. lia. }
  assert (Op : forall v, is_op (nodes s) v = true -> exists a g, operation s' v a g).
  { intros v Hv. destruct (is_op_inv _ _ Hv) as (a & g & d & Hn). exists a, g, d. eapply grows_node; eauto. }
  assert (Lk : forall v, is_op (nodes s) v = true -> linked s' v (length (nodes s))).
  { intros v Hv. destruct (Op v Hv) as (a & g & Ov). exact (link_arg s' v _ a g args _ Ov On (Ia v Hv)). }
  exists s'. split; [exact C'|]. split; [exact G|]. split; [destruct (Op e Oe) as (a & g & d & Hn); eapply is_op_intro; eauto|].
  intros v Hv. apply (link_trans s' v (length (nodes s)) e); [|apply link_sym; now apply Lk].
  destruct (Nat.eq_dec v (length (nodes s))) as [->|Ne]; [eapply link_self; exact On|]. apply Lk. pose proof (is_op_lt _ _ Hv) as Hlt. rewrite Ln in Hlt.
  destruct G as [[l El] _]. unfold is_op in *. rewrite El in Hv. rewrite nth_error_app1 in Hv by lia. exact Hv.
Qed.
End P.
