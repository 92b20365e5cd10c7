(** Laws of the gradient descent updaters. *)
From Coq Require Import Permutation Reals Lra.
From Verif Require Import Common EvalModel EvalSpec EvalProofs EvalLaws UpdaterModel UpdaterSpec UpdaterProofs.

Section Aux.
Context {V : Type} (compat : V -> V -> bool).
Context (ord : list (enode V) -> nat -> list nat) (top : list (enode V) -> list nat -> option nat).
Context (Hord : valid_order ord) (Htop : valid_top top).
Context (A : arith V).
Implicit Types s t : estate V.
Local Notation step := (step compat ord top).
Local Notation run := (run compat ord top).
Local Notation run_on := (run_on compat ord top).
Local Notation call_updater := (call_updater compat ord top).

Lemma run_run_on ops : forall s s', run s ops = Done s' tt -> run_on s ops = Some s'.
Proof.
  induction ops as [|o ops IH]; intros s s' E; cbn [EvalModel.run EvalModel.run_on] in *; [now injection E as <-|].
  destruct (step s o) as [s1 r|s1|]; try discriminate. now apply IH.
Qed.
Lemma run_app a b : forall s s1 s2, run s a = Done s1 tt -> run s1 b = Done s2 tt -> run s (a ++ b) = Done s2 tt.
Proof.
  induction a as [|o a IH]; intros s s1 s2 E1 E2; cbn [EvalModel.run app] in *; [injection E1 as <-; auto|].
  destruct (step s o) as [s0 r|s0|]; try discriminate. cbn [obind] in *. eapply IH; eauto.
Qed.
Lemma run_one s o s' r : step s o = Done s' r -> run s [o] = Done s' tt.
Proof. intros E. cbn. now rewrite E. Qed.

(** histories of the kind considered *)
Definition from_plain t : Prop := exists ops, run einit ops = Done t tt /\ Forall plain ops /\ Forall no_freeze ops.
Lemma fp_step t o t' r : from_plain t -> plain o -> no_freeze o -> step t o = Done t' r -> from_plain t'.
Proof.
  intros [ops [E [P F]]] Hp Hf Es. exists (ops ++ [o]). split; [eapply run_app; eauto; eapply run_one; eauto|].
  split; apply Forall_app; auto.
Qed.
Lemma fp_run ops : forall t t', from_plain t -> Forall plain ops -> Forall no_freeze ops -> run t ops = Done t' tt -> from_plain t'.
Proof.
  induction ops as [|o ops IH]; intros t t' Hp P F E; cbn [EvalModel.run] in E; [injection E as <-; auto|].
  apply Forall_cons_iff in P as [P1 P]. apply Forall_cons_iff in F as [F1 F].
  destruct (step t o) as [t1 r|t1|] eqn:Es; try discriminate. cbn [obind] in E. apply (IH t1); auto. apply (fp_step t o t1 r); auto.
Qed.
Lemma fp_Good t : from_plain t -> Good t.
Proof. intros [ops [E [P F]]]. eapply (run_Good compat ord top); eauto. apply einit_Good. Qed.
Lemma fp_nq t : from_plain t -> nq t.
Proof.
  intros [ops [E [P F]]]. eapply (run_on_nq compat ord top Hord Htop ops einit); eauto; [apply einit_Good| |now apply run_run_on]. split; [reflexivity|intros w []].
Qed.
Lemma fp_frozen t v : from_plain t -> is_frozen t v = false.
Proof. intros H. destruct (fp_nq t H) as [F _]. unfold is_frozen. now rewrite F. Qed.

(** nodes only get added *)
Lemma step_nodes s o s' r : WF s -> step s o = Done s' r -> nodes s' = nodes s ++
  match o with ELeaf _ => [NLeaf] | EOp args f => [NOp args f (new_depth (nodes s) args)] | EClone v => match nth_error (nodes s) v with Some (NOp a f _) => [NOp a f 0] | _ => [] end | _ => [] end.
Proof.
  intros W E. destruct o as [y|args f|v y b|v|v|v b|v]; cbn [EvalModel.step] in E.
  - injection E as <- _. reflexivity.
  - destruct (length args =? 0) eqn:El; [discriminate|]. destruct (forallb (fun a => a <? length (nodes s)) args) eqn:Ef; [|discriminate]. cbn [negb orb] in E.
    destruct (join_spec s args) as [g [Hg1 Hg2]]. destruct (join s args) as [mg m] eqn:Ej. cbn [fst snd] in *. subst mg.
    set (n := NOp args f (new_depth (nodes s) args)) in *.
    change (mkE (nodes s ++ [n]) (vals s ++ [None]) (map g (mgr s) ++ [m]) (frozen s) (queue s) (qmap s) (elog s)) with (appended s n None g m) in E.
    assert (W1 : WF (appended s n None g m)).
    { apply app_WF; auto; cbn. split; [intros ->; discriminate|]. split; [|auto]. rewrite forallb_forall in Ef. intros a Ha'. apply Nat.ltb_lt, Ef, Ha'. }
    assert (Ho : is_op (nodes (appended s n None g m)) (length (nodes s)) = true) by (eapply is_op_intro; apply app_new).
    assert (Hk : length (nodes (appended s n None g m)) - length (nodes s) <= S (length (nodes s))) by (cbn; rewrite app_length; cbn; lia).
    pose proof (upd_ok compat ord Hord _ _ _ W1 Ho Hk) as HO.
    destruct (upd compat ord (S (length (nodes s))) (appended s n None g m) (length (nodes s))) as [s2 []|s2|]; try discriminate. injection E as <- _.
    destruct HO as [_ [X _]]. rewrite (e_nodes _ _ X). reflexivity.
  - destruct (nth_error (nodes s) v) as [[|]|] eqn:Hn; try discriminate. rewrite app_nil_r. destruct b; [|injection E as <- _; reflexivity].
    destruct (set_leaf_WF s v y W Hn) as [W1 _]. pose proof (notify_ok compat ord Hord (set_val s v y) v W1) as HN.
    destruct (notify compat ord (set_val s v y) v) as [s2 []|s2|]; try discriminate. injection E as <- _. destruct HN as [_ [X _]]. now rewrite (e_nodes _ _ X).
  - rewrite app_nil_r. destruct (nth_error (nodes s) v) as [[|a f d]|] eqn:Hn; try discriminate; [now injection E as <- _|]. destruct (is_frozen s v); [now injection E as <- _|].
    pose proof (flush_all_ok compat ord top Hord Htop s v W) as HO. destruct (flush_all compat ord top s v) as [s2 u|s2|]; try discriminate. injection E as <- _. destruct HO as [_ [X _]]. apply X.
  - rewrite app_nil_r. destruct (nth_error (nodes s) v) as [[|a f d]|] eqn:Hn; try discriminate; [now injection E as <- _|].
    pose proof (flush_all_ok compat ord top Hord Htop s v W) as HO. destruct (flush_all compat ord top s v) as [s2 u|s2|]; try discriminate. injection E as <- _. destruct HO as [_ [X _]]. apply X.
  - rewrite app_nil_r. destruct (nth_error (nodes s) v) as [[|a f d]|] eqn:Hn; try discriminate. destruct b; cbn [obind] in E; [|now injection E as <- _].
    pose proof (flush_all_ok compat ord top Hord Htop s v W) as HO. destruct (flush_all compat ord top s v) as [s2 u|s2|]; try discriminate. injection E as <- _. destruct HO as [_ [X _]]. apply X.
  - destruct (nth_error (nodes s) v) as [[|a f d]|] eqn:Hn; try discriminate. injection E as <- _. reflexivity.
Qed.
Lemma step_node_kept s o s' r v nd : WF s -> step s o = Done s' r -> nth_error (nodes s) v = Some nd -> nth_error (nodes s') v = Some nd.
Proof. intros W E H. rewrite (step_nodes _ _ _ _ W E). rewrite nth_error_app1; auto. now apply nth_error_lt in H. Qed.

(** an assignment sets its leaf and no other *)
Lemma assign_val s v y b s' r : WF s -> step s (EAssign v y b) = Done s' r -> leaf s v /\ val s' v = Some y /\ nodes s' = nodes s /\ forall u, leaf s u -> u <> v -> val s' u = val s u.
Proof.
  intros W E. pose proof (step_nodes _ _ _ _ W E) as En. rewrite app_nil_r in En. cbn [EvalModel.step] in E. destruct (nth_error (nodes s) v) as [[|]|] eqn:Hn; try discriminate. split; auto.
  assert (Hl : v < length (vals s)) by (rewrite (wf_vals _ W); now apply nth_error_lt in Hn).
  assert (Hv : forall u, val (set_val s v y) u = if u =? v then Some y else val s u) by (intros u; now apply val_set).
  assert (X : forall u, leaf s u -> val s' u = val (set_val s v y) u).
  { destruct b; [|injection E as <- _; reflexivity].
    destruct (set_leaf_WF s v y W Hn) as [W1 _]. pose proof (notify_ok compat ord Hord (set_val s v y) v W1) as HN.
    destruct (notify compat ord (set_val s v y) v) as [s2 []|s2|]; try discriminate. injection E as <- _. destruct HN as [_ [X _]]. apply X. }
  split; [rewrite X, Hv, Nat.eqb_refl by exact Hn; reflexivity|]. split; auto. intros u Hu Hne. rewrite X, Hv by exact Hu. apply Nat.eqb_neq in Hne. now rewrite Hne.
Qed.

(** denotations *)
Lemma den1 s v a h z : operation s v [a] (fun1 h) -> denotes s v (Some z) -> exists y, denotes s a (Some y) /\ z = h y.
Proof.
  intros [d Hn] H. inversion H as [u Hu E|u args f os vs y [d' Hn'] HF Ha Hf|]; subst; [unfold leaf in Hu; congruence|].
  rewrite Hn in Hn'. injection Hn' as <- <- <-. inversion HF as [|? o ? os' H1 H2]; subst. inversion H2; subst. cbn in Ha. destruct o as [y|]; [|discriminate]. injection Ha as <-. cbn in Hf. injection Hf as <-. eauto.
Qed.
Lemma den2 s v a b h z : operation s v [a; b] (fun2 h) -> denotes s v (Some z) -> exists y1 y2, denotes s a (Some y1) /\ denotes s b (Some y2) /\ h y1 y2 = Some z.
Proof.
  intros [d Hn] H. inversion H as [u Hu E|u args f os vs y [d' Hn'] HF Ha Hf|]; subst; [unfold leaf in Hu; congruence|].
  rewrite Hn in Hn'. injection Hn' as <- <- <-. inversion HF as [|? o1 ? os' H1 H2]; subst. inversion H2 as [|? o2 ? os'' H3 H4]; subst. inversion H4; subst. cbn in Ha.
  destruct o1 as [y1|]; [|discriminate]. destruct o2 as [y2|]; [|discriminate]. injection Ha as <-. eauto.
Qed.
Lemma den_leaf_inv s v r : leaf s v -> denotes s v r -> r = val s v.
Proof. unfold leaf. intros Hl H. inversion H as [|? ? ? ? ? ? [? Hn]|? ? ? ? [? Hn]]; subst; auto; congruence. Qed.
Lemma denotes_local s t b : WF t -> nodes s = nodes t -> (forall v, v < b -> leaf t v -> val s v = val t v) -> forall v, v < b -> forall r, denotes t v r -> denotes s v r.
Proof.
  intros W En Hl v. induction v as [v IH] using lt_wf_ind. intros Hb r H. inversion H as [w Hw|w args f os vs x [d Hn] HF Ha Hf|w args f os [d Hn] HF Hi]; subst.
  - rewrite <- Hl by auto. constructor. unfold leaf. now rewrite En.
  - eapply den_op; [exists d; rewrite En; exact Hn| |exact Ha|exact Hf].
    pose proof (proj2 (wf_args _ W _ _ _ _ Hn)) as Hlt. clear - IH HF Hlt Hb. induction HF; constructor; auto.
    + assert (x < v) by (apply Hlt; now left). apply IH; auto; lia.
    + apply IHHF. intros; apply Hlt; now right.
  - eapply den_undef; [exists d; rewrite En; exact Hn| |exact Hi].
    pose proof (proj2 (wf_args _ W _ _ _ _ Hn)) as Hlt. clear - IH HF Hlt Hb. induction HF; constructor; auto.
    + assert (x < v) by (apply Hlt; now left). apply IH; auto; lia.
    + apply IHHF. intros; apply Hlt; now right.
Qed.
Lemma denotes_fun s v r1 r2 : from_plain s -> denotes s v r1 -> denotes s v r2 -> r1 = r2.
Proof. intros [ops [E _]]. eapply (C29_value_unique_lemma V compat ord top ops s); eauto. now apply run_run_on. Qed.

(** eval in such a history *)
Lemma fp_eval t v t' r : from_plain t -> step t (EEval v) = Done t' r -> from_plain t' /\ denotes t v r /\ r = val t' v /\ nodes t' = nodes t /\ forall u, leaf t u -> val t' u = val t u.
Proof.
  intros Hp E. split; [eapply fp_step; eauto; exact Logic.I|]. pose proof (fp_Good t Hp) as G.
  destruct (eval_denotes compat ord top Hord Htop t v t' r G (fp_frozen t v Hp) E) as [Hd [G' [X _]]].
  split; [eapply denotes_ext; [apply X|apply X|apply G|exact Hd]|]. split; [|split; apply X].
  cbn [EvalModel.step] in E. destruct (nth_error (nodes t) v) as [[|a f d]|]; try discriminate; [now injection E as <- <-|]. rewrite (fp_frozen t v Hp) in E.
  destruct (flush_all compat ord top t v) as [s2 u|s2|]; try discriminate. now injection E as <- <-.
Qed.

Lemma Done_inj {B} s1 s2 (r1 r2 : B) : Done s1 r1 = Done s2 r2 -> s1 = s2 /\ r1 = r2.
Proof. intros H. split; congruence. Qed.

(** ---- rmsprop ---- *)
Context (n g w : nat) (one : V).
Record ghost t : Prop := {
  gh_plain : from_plain t;
  gh_one : val t n = Some one;
  gh_leaf : leaf t n;
  gh_only : only n t;
  gh_w : leaf t w;
  gh_wn : w < n;
  gh_gn : g < n;
  gh_1 : operation t (n + 1) [n] (fun1 (scale_d A));
  gh_2 : operation t (n + 2) [g] (fun1 (square A));
  gh_3 : operation t (n + 3) [n + 2] (fun1 (scale_1d A));
  gh_4 : operation t (n + 4) [n + 1; n + 3] (fun2 (add_ A));
  gh_5 : operation t (n + 5) [g] (fun1 (scale_lr A));
  gh_6 : operation t (n + 6) [n + 4] (fun1 (sqrt_ A));
  gh_7 : operation t (n + 7) [n + 6] (fun1 (add_eps A));
  gh_8 : operation t (n + 8) [n + 5; n + 7] (fun2 (div_ A))
}.
Lemma gh_unq t : ghost t -> unqueued n t.
Proof.
  intros G c Hc C. destruct (fp_nq t (gh_plain t G)) as [_ Q]. specialize (Q c Hc). unfold nary in Q. rewrite (gh_only t G c C) in Q. discriminate.
Qed.
Lemma set_same t y : val t n = Some y -> set_val t n y = t.
Proof.
  intros H. unfold val in H. destruct (nth_error (vals t) n) as [[z|]|] eqn:E; try discriminate. injection H as ->. destruct t as [a b c d e f h]. unfold set_val; cbn in *. f_equal.
  clear -E. revert n E. induction b as [|u b IH]; intros [|k] E; cbn in *; try discriminate; [now injection E as ->|]. f_equal. now apply IH.
Qed.

Lemma ghost_step t y o s' r : ghost t -> plain o -> no_freeze o -> avoids n o -> step (set_val t n y) o = Done s' r ->
  exists t' r', s' = set_val t' n y /\ ghost t' /\ step t o = Done t' r'.
Proof.
  intros G Hp Hf Ha E. pose proof (fp_Good t (gh_plain t G)) as [W _].
  pose proof (step_sim compat ord top Hord Htop n y t o W (gh_leaf t G) (gh_only t G) (gh_unq t G) Ha) as HS. rewrite E in HS.
  destruct (step t o) as [t' r'|t'|] eqn:Et; cbn in HS; try contradiction. exists t', r'. split; auto. split; auto.
  assert (KP : forall v nd, nth_error (nodes t) v = Some nd -> nth_error (nodes t') v = Some nd) by (intros v nd; eapply step_node_kept; eauto).
  assert (KO : forall v args f, operation t v args f -> operation t' v args f) by (intros v args f [d H]; exists d; auto).
  destruct G as [G1 G2 G3 G4 G5 G6 G7 G8 G9 G10 G11 G12 G13 G14 G15]. constructor; auto.
  - eapply fp_step; eauto.
  - pose proof (step_sim compat ord top Hord Htop n one t o W G3 G4) as HS1. rewrite (set_same t one G2), Et in HS1.
    assert (X : t' = set_val t' n one) by (apply HS1; auto; apply gh_unq; constructor; auto). rewrite X. rewrite val_set; [now rewrite Nat.eqb_refl|].
    pose proof (step_WF compat ord top Hord Htop t o W) as [W' _]; [apply (step_callable compat ord top); congruence|]. rewrite Et in W'. rewrite (wf_vals _ W').
    unfold leaf in G3. apply KP in G3. now apply nth_error_lt in G3.
  - apply KP. exact G3.
  - intros c Hc. unfold args_of in *. rewrite (step_nodes _ _ _ _ W Et) in *.
    destruct (Nat.lt_ge_cases c (length (nodes t))) as [L|L].
    + rewrite nth_error_app1 in * by auto. apply G4. exact Hc.
    + rewrite nth_error_app2 in * by auto. destruct o as [z|args f|v z b|v|v|v b|v]; cbn in Ha; try contradiction;
        destruct (c - length (nodes t)) as [|k]; cbn in Hc; try (destruct k; cbn in Hc); try contradiction.
  - apply KP. exact G5.
Qed.

Lemma ghost_eval t y v s' r : ghost t -> v <> n -> step (set_val t n y) (EEval v) = Done s' r ->
  exists t', s' = set_val t' n y /\ ghost t' /\ denotes t v r /\ nodes t' = nodes t /\ forall u, leaf t u -> val t' u = val t u.
Proof.
  intros G Hv E. destruct (ghost_step t y (EEval v) s' r G) as [t' [r' [-> [G' Et]]]]; auto; try exact Logic.I.
  destruct (fp_eval t v t' r' (gh_plain t G) Et) as [_ [Hd [Hr [Hn Hu]]]]. exists t'. split; auto. split; auto. split; [|auto].
  assert (X : r = val (set_val t' n y) v).
  { cbn [EvalModel.step] in E. change (nodes (set_val t n y)) with (nodes t) in E. destruct (nth_error (nodes t) v) as [[|a f d]|] eqn:En; try discriminate.
    - apply Done_inj in E as [E <-]. now rewrite E.
    - change (is_frozen (set_val t n y) v) with (is_frozen t v) in E. rewrite (fp_frozen t v (gh_plain t G)) in E.
      destruct (flush_all compat ord top (set_val t n y) v) as [s2 u|s2|]; try discriminate. cbn [obind] in E. apply Done_inj in E as [E <-]. now rewrite E. }
  rewrite X, (val_other n y t' v Hv), <- Hr. exact Hd.
Qed.

Lemma den_momentum t r : ghost t -> denotes t (n + 4) (Some r) -> exists gv, denotes t g (Some gv) /\ add_ A (scale_d A one) (scale_1d A (square A gv)) = Some r.
Proof.
  intros G H. destruct (den2 _ _ _ _ _ _ (gh_4 t G) H) as [y1 [y2 [H1 [H2 E]]]].
  destruct (den1 _ _ _ _ _ (gh_1 t G) H1) as [z1 [Hz1 ->]]. apply (den_leaf_inv _ _ _ (gh_leaf t G)) in Hz1. rewrite (gh_one t G) in Hz1. injection Hz1 as ->.
  destruct (den1 _ _ _ _ _ (gh_3 t G) H2) as [z2 [Hz2 ->]]. destruct (den1 _ _ _ _ _ (gh_2 t G) Hz2) as [gv [Hg ->]]. eauto.
Qed.
Lemma den_leafstep t r : ghost t -> denotes t (n + 8) (Some r) -> exists gv gv' mz, denotes t g (Some gv) /\ denotes t g (Some gv') /\
  add_ A (scale_d A one) (scale_1d A (square A gv')) = Some mz /\ div_ A (scale_lr A gv) (add_eps A (sqrt_ A mz)) = Some r.
Proof.
  intros G H. destruct (den2 _ _ _ _ _ _ (gh_8 t G) H) as [y1 [y2 [H1 [H2 E]]]].
  destruct (den1 _ _ _ _ _ (gh_5 t G) H1) as [gv [Hg ->]]. destruct (den1 _ _ _ _ _ (gh_7 t G) H2) as [z2 [Hz2 ->]]. destruct (den1 _ _ _ _ _ (gh_6 t G) Hz2) as [mz [Hm ->]].
  destruct (den_momentum t mz G Hm) as [gv' [Hg' Em]]. exists gv, gv', mz. auto.
Qed.

Lemma rms_call_spec t y s' r : ghost t -> rms_call compat ord top A (set_val t n y) n w true = Done s' r ->
  exists t' gv mz st wv wz, s' = set_val t' n mz /\ ghost t' /\ denotes t g (Some gv) /\
    add_ A (scale_d A one) (scale_1d A (square A gv)) = Some mz /\ div_ A (scale_lr A gv) (add_eps A (sqrt_ A mz)) = Some st /\
    val t w = Some wv /\ sub_ A wv st = Some wz /\ val t' w = Some wz /\ nodes t' = nodes t /\ forall v, leaf t v -> v <> w -> val t' v = val t v.
Proof.
  intros G E. unfold rms_call, UpdaterModel.call_updater in E. pose proof (gh_wn t G) as Hwn. pose proof (gh_leaf t G) as Hlf. pose proof (fp_Good t (gh_plain t G)) as [W _].
  destruct (step (set_val t n y) (EEval (n + 4))) as [s1 r1|s1|] eqn:E1; try discriminate. cbn [obind] in E.
  destruct (ghost_eval t y (n + 4) s1 r1 G ltac:(lia) E1) as [t1 [-> [G1 [D1 [N1 U1]]]]].
  destruct r1 as [mz|]; [|discriminate]. destruct (val (set_val t1 n y) n) as [?|] eqn:Ev; [|discriminate].
  assert (Ea : step (set_val t1 n y) (EAssign n mz false) = Done (set_val (set_val t1 n y) n mz) None).
  { cbn [EvalModel.step]. change (nodes (set_val t1 n y)) with (nodes t1). rewrite N1. unfold leaf in Hlf. now rewrite Hlf. }
  rewrite Ea in E. cbn [obind] in E.
  assert (Es : set_val (set_val t1 n y) n mz = set_val t1 n mz).
  { unfold set_val; cbn. f_equal. clear. generalize (vals t1) as l. revert n. induction n as [|k IH]; intros [|u l]; cbn; auto. now rewrite IH. }
  rewrite Es in E.
  match type of E with obind ?e _ = _ => change e with (step (set_val t1 n mz) (EEval (n + 8))) in E end.
  destruct (step (set_val t1 n mz) (EEval (n + 8))) as [s2 r2|s2|] eqn:E2; try discriminate. cbn [obind] in E.
  destruct (ghost_eval t1 mz (n + 8) s2 r2 G1 ltac:(lia) E2) as [t2 [-> [G2 [D2 [N2 U2]]]]].
  destruct r2 as [st|]; [|discriminate]. rewrite val_other in E by lia. destruct (val t2 w) as [wv|] eqn:Ew; [|discriminate].
  destruct (sub_ A wv st) as [wz|] eqn:Ez; [|discriminate].
  match type of E with ?e = _ => change e with (step (set_val t2 n mz) (EAssign w wz true)) in E end.
  destruct (ghost_step t2 mz (EAssign w wz true) s' r G2) as [t3 [r3 [-> [G3 E3]]]]; [reflexivity|exact Logic.I|cbn; lia|exact E|].
  pose proof (fp_Good t2 (gh_plain t2 G2)) as [W2 _].
  destruct (assign_val t2 w wz true t3 r3 W2 E3) as [_ [Hw [N3 U3]]].
  destruct (den_momentum t mz G D1) as [gv [Hg Em]]. destruct (den_leafstep t1 st G1 D2) as [gv1 [gv2 [mz2 [Hg1 [Hg2 [Em2 Est]]]]]].
  assert (Tr : forall z, denotes t1 g z -> denotes t g z) by (intros z; apply (denotes_ext t t1 N1 U1 g W)).
  assert (X1 : Some gv1 = Some gv) by (eapply (denotes_fun t g); eauto; apply G). assert (X2 : Some gv2 = Some gv) by (eapply (denotes_fun t g); eauto; apply G).
  injection X1 as ->. injection X2 as ->. rewrite Em in Em2. injection Em2 as <-.
  exists t3, gv, mz, st, wv, wz. split; auto. split; auto. split; auto. split; auto. split; auto.
  assert (L1 : forall u, leaf t u -> leaf t1 u) by (intros u; unfold leaf; now rewrite N1).
  assert (L2 : forall u, leaf t u -> leaf t2 u) by (intros u; unfold leaf; now rewrite N2, N1).
  split; [rewrite <- Ew, U2, U1; auto; [apply G|apply L1, G]|]. split; auto. split; auto. split; [congruence|].
  intros u Hu Hne. rewrite U3, U2, U1; auto.
Qed.
End Aux.

(** ================= C38 ================= *)

(** Vanilla gradient descent. In any history without clones, silent assignments and exceptions, let
    [n] be the node built for the gradient node [g]. Calling the updater of [w] (with notification)
    subtracts from [w] the learning rate times the value of the gradient for the current leaf
    values, changes no other leaf, and leaves the graph in a state of the same kind, so
    that this holds for the next call too. *)
Lemma C38_vgb_lemma : forall V compat ord top A ops s g w n s' r,
  @valid_order V ord -> valid_top top ->
  run compat ord top einit ops = Done s tt -> Forall plain ops -> Forall no_freeze ops ->
  operation s n [g] (fun1 (scale_lr A)) -> leaf s w ->
  vgb_call compat ord top A s w n true = Done s' r ->
  (exists gv y z, denotes s g (Some gv) /\ val s w = Some y /\ sub_ A y (scale_lr A gv) = Some z /\ val s' w = Some z) /\
  (forall x, leaf s x -> x <> w -> val s' x = val s x) /\ nodes s' = nodes s /\
  exists ops', run compat ord top einit ops' = Done s' tt /\ Forall plain ops' /\ Forall no_freeze ops'.
Proof.
  intros V compat ord top A ops s g w n s' r Ho Ht E HP HF Hn Hw Ec. unfold vgb_call, call_updater in Ec.
  assert (FP : from_plain compat ord top s) by (exists ops; auto).
  destruct (step compat ord top s (EEval n)) as [s1 r1|s1|] eqn:E1; try discriminate. cbn [obind] in Ec.
  destruct (fp_eval compat ord top Ho Ht s n s1 r1 FP E1) as [FP1 [D1 [_ [N1 U1]]]].
  destruct r1 as [x|]; [|discriminate]. destruct (val s1 w) as [y|] eqn:Ew; [|discriminate]. destruct (sub_ A y x) as [z|] eqn:Ez; [|discriminate].
  destruct (den1 _ _ _ _ _ Hn D1) as [gv [Hg ->]].
  pose proof (fp_Good compat ord top Ho Ht s1 FP1) as [W1 _].
  destruct (assign_val compat ord top Ho Ht s1 w z true s' r W1 Ec) as [_ [Hz [N2 U2]]].
  split; [|split; [|split]].
  - exists gv, y, z. split; auto. split; [rewrite <- Ew; symmetry; now apply U1|auto].
  - intros v Hv Hne. rewrite U2; auto. unfold leaf. now rewrite N1.
  - congruence.
  - eapply (fp_step compat ord top); eauto; [reflexivity|exact Logic.I].
Qed.

(** RMSprop. Whatever happens to the graph between the calls (as long as the momentum variable, which
    the updater owns, is left alone), each call sets the momentum to
    discount * 1 + (1 - discount) * gradient^2, 1 being its initial value - not its last one - and
    subtracts learning_rate * gradient / (sqrt(momentum) + epsilon) from the variable. *)
Lemma C38_rmsprop_lemma : forall V compat ord top A ops s g w one s1 us s2 s3 r,
  @valid_order V ord -> valid_top top ->
  run compat ord top einit ops = Done s tt -> Forall plain ops -> Forall no_freeze ops ->
  leaf s w -> g < length (nodes s) ->
  let n := length (nodes s) in
  run compat ord top s (rms_ops A n g one) = Done s1 tt ->
  Forall (fun u => match u with UOp o => plain o /\ no_freeze o /\ avoids n o | UCall => True end) us ->
  rms_run compat ord top A n w s1 us = Done s2 tt ->
  rms_call compat ord top A s2 n w true = Done s3 r ->
  exists gv mz st y z, denotes s2 g (Some gv) /\
    add_ A (scale_d A one) (scale_1d A (square A gv)) = Some mz /\ val s3 n = Some mz /\
    div_ A (scale_lr A gv) (add_eps A (sqrt_ A mz)) = Some st /\
    val s2 w = Some y /\ sub_ A y st = Some z /\ val s3 w = Some z /\
    forall x, leaf s2 x -> x <> w -> x <> n -> val s3 x = val s2 x.
Proof.
  intros V compat ord top A ops s g w one s1 us s2 s3 r Ho Ht E HP HF Hw Hg n E1 HU E2 E3.
  assert (FP : from_plain compat ord top s) by (exists ops; auto).
  assert (Hwn : w < n) by (unfold leaf in Hw; now apply nth_error_lt in Hw).
  assert (G1 : ghost compat ord top A n g w one s1).
  { assert (FP1 : from_plain compat ord top s1) by (eapply fp_run; [exact FP| | |exact E1]; repeat constructor).
    pose proof (fp_Good compat ord top Ho Ht s FP) as [W _]. unfold rms_ops in E1.
    assert (NS : exists d1 d2 d3 d4 d5 d6 d7 d8, nodes s1 = nodes s ++ [NLeaf; NOp [n] (fun1 (scale_d A)) d1; NOp [g] (fun1 (square A)) d2; NOp [n + 2] (fun1 (scale_1d A)) d3;
       NOp [n + 1; n + 3] (fun2 (add_ A)) d4; NOp [g] (fun1 (scale_lr A)) d5; NOp [n + 4] (fun1 (sqrt_ A)) d6; NOp [n + 6] (fun1 (add_eps A)) d7; NOp [n + 5; n + 7] (fun2 (div_ A)) d8]).
    { clear - E1 W Ho Ht.
      assert (R : forall l s s1, WF s -> run compat ord top s (map (fun p => EOp (fst p) (snd p)) l) = Done s1 tt ->
         exists ds, length ds = length l /\ nodes s1 = nodes s ++ map (fun q => NOp (fst (fst q)) (snd (fst q)) (snd q)) (combine l ds)).
      { induction l as [|[a f] l IH]; intros t t1 Wt Et; cbn [map run] in Et; [injection Et as <-; exists []; cbn; now rewrite app_nil_r|].
        cbn [fst snd] in Et. destruct (step compat ord top t (EOp a f)) as [t0 r0|t0|] eqn:Es; try discriminate. cbn [obind] in Et.
        pose proof (step_nodes compat ord top Ho Ht t _ t0 r0 Wt Es) as En.
        assert (W0 : WF t0). { destruct (step_WF compat ord top Ho Ht t (EOp a f) Wt) as [H _]; [apply (step_callable compat ord top); congruence|]. now rewrite Es in H. }
        destruct (IH t0 t1 W0 Et) as [ds [Hl Hn]]. exists (new_depth (nodes t) a :: ds). split; [cbn; lia|]. rewrite Hn, En, <- app_assoc. reflexivity. }
      cbn [run] in E1. destruct (step compat ord top s (ELeaf (Some one))) as [t0 r0|t0|] eqn:Es; try discriminate. cbn [obind] in E1.
      pose proof (step_nodes compat ord top Ho Ht s _ t0 r0 W Es) as En.
      assert (W0 : WF t0). { destruct (step_WF compat ord top Ho Ht s (ELeaf (Some one)) W) as [H _]; [exact Logic.I|]. now rewrite Es in H. }
      destruct (R [([n], fun1 (scale_d A)); ([g], fun1 (square A)); ([n + 2], fun1 (scale_1d A)); ([n + 1; n + 3], fun2 (add_ A)); ([g], fun1 (scale_lr A)); ([n + 4], fun1 (sqrt_ A)); ([n + 6], fun1 (add_eps A)); ([n + 5; n + 7], fun2 (div_ A))] t0 s1 W0 E1) as [ds [Hl Hn]].
      do 8 (destruct ds as [|? ds]; [discriminate|]). destruct ds; [|discriminate]. do 8 eexists. rewrite Hn, En, <- app_assoc. reflexivity. }
    destruct NS as [d1 [d2 [d3 [d4 [d5 [d6 [d7 [d8 NS]]]]]]]].
    assert (AT : forall k, nth_error (nodes s1) (n + k) = nth_error [NLeaf; NOp [n] (fun1 (scale_d A)) d1; NOp [g] (fun1 (square A)) d2; NOp [n + 2] (fun1 (scale_1d A)) d3;
       NOp [n + 1; n + 3] (fun2 (add_ A)) d4; NOp [g] (fun1 (scale_lr A)) d5; NOp [n + 4] (fun1 (sqrt_ A)) d6; NOp [n + 6] (fun1 (add_eps A)) d7; NOp [n + 5; n + 7] (fun2 (div_ A)) d8] k).
    { intros k. rewrite NS, nth_error_app2 by (unfold n; lia). f_equal. unfold n. lia. }
    pose proof (AT 0) as AT0. rewrite Nat.add_0_r in AT0.
    constructor; auto; try (eexists; rewrite AT; reflexivity).
    - (* the leaf keeps its initial value while the nodes are built *)
      cbn [run] in E1. destruct (step compat ord top s (ELeaf (Some one))) as [t0 r0|t0|] eqn:Es; try discriminate. cbn [obind] in E1.
      pose proof (step_nodes compat ord top Ho Ht s _ t0 r0 W Es) as En.
      assert (W0 : WF t0). { destruct (step_WF compat ord top Ho Ht s (ELeaf (Some one)) W) as [H _]; [exact Logic.I|]. now rewrite Es in H. }
      assert (V0 : val t0 n = Some one). { cbn in Es. injection Es as <- _. unfold val; cbn. rewrite nth_error_app2; rewrite (wf_vals _ W); auto. unfold n. now rewrite Nat.sub_diag. }
      assert (L0 : leaf t0 n). { unfold leaf. rewrite En, nth_error_app2 by (unfold n; lia). unfold n. now rewrite Nat.sub_diag. }
      assert (R : forall l t t1, WF t -> leaf t n -> run compat ord top t (map (fun p => EOp (fst p) (snd p)) l) = Done t1 tt -> val t1 n = val t n).
      { clear - Ho Ht. induction l as [|[a f] l IH]; intros t t1 Wt Lt Et; cbn [map run] in Et; [now injection Et as <-|]. cbn [fst snd] in Et.
        destruct (step compat ord top t (EOp a f)) as [t0 r0|t0|] eqn:Es; try discriminate. cbn [obind] in Et.
        assert (W0 : WF t0). { destruct (step_WF compat ord top Ho Ht t (EOp a f) Wt) as [H _]; [apply (step_callable compat ord top); congruence|]. now rewrite Es in H. }
        assert (L0 : leaf t0 n) by (exact (step_node_kept compat ord top Ho Ht t (EOp a f) t0 r0 n NLeaf Wt Es Lt)).
        rewrite (IH t0 t1 W0 L0 Et). cbn [step] in Es.
        destruct (length a =? 0) eqn:El; [discriminate|]. destruct (forallb (fun a => a <? length (nodes t)) a) eqn:Ef; [|discriminate]. cbn [negb orb] in Es.
        destruct (join_spec t a) as [h [Hg1 Hg2]]. destruct (join t a) as [mg m] eqn:Ej. cbn [fst snd] in *. subst mg.
        set (nd := NOp a f (new_depth (nodes t) a)) in *.
        change (mkE (nodes t ++ [nd]) (vals t ++ [None]) (map h (mgr t) ++ [m]) (frozen t) (queue t) (qmap t) (elog t)) with (appended t nd None h m) in Es.
        assert (W1 : WF (appended t nd None h m)).
        { apply app_WF; auto; cbn. split; [intros ->; discriminate|]. split; [|auto]. rewrite forallb_forall in Ef. intros a' Ha'. apply Nat.ltb_lt, Ef, Ha'. }
        assert (Hop : is_op (nodes (appended t nd None h m)) (length (nodes t)) = true) by (eapply is_op_intro; apply app_new).
        assert (Hk : length (nodes (appended t nd None h m)) - length (nodes t) <= S (length (nodes t))) by (cbn; rewrite app_length; cbn; lia).
        pose proof (upd_ok compat ord Ho _ _ _ W1 Hop Hk) as HO.
        destruct (upd compat ord (S (length (nodes t))) (appended t nd None h m) (length (nodes t))) as [s2 []|s2|]; try discriminate. injection Es as <- _.
        destruct HO as [_ [X _]]. assert (Hlt : n < length (nodes t)) by (unfold leaf in Lt; now apply nth_error_lt in Lt).
        rewrite (e_leaf _ _ X) by (rewrite app_old; auto). now apply app_val. }
      rewrite <- V0. eapply (R [([n], fun1 (scale_d A)); ([g], fun1 (square A)); ([n + 2], fun1 (scale_1d A)); ([n + 1; n + 3], fun2 (add_ A)); ([g], fun1 (scale_lr A)); ([n + 4], fun1 (sqrt_ A)); ([n + 6], fun1 (add_eps A)); ([n + 5; n + 7], fun2 (div_ A))]); eauto.
    - intros c Hc. unfold args_of in *. destruct (Nat.lt_ge_cases c n) as [L|L].
      + exfalso. rewrite NS, nth_error_app1 in Hc by exact L. destruct (nth_error (nodes s) c) as [[|a f d]|] eqn:Hcn; try contradiction.
        pose proof (proj2 (wf_args _ W _ _ _ _ Hcn) n Hc). lia.
      + replace c with (n + (c - n)) in * by lia. rewrite AT in *. remember (c - n) as k. clear - Hc Hg.
        do 9 (destruct k as [|k]; [cbn in Hc |- *; try tauto; try (exfalso; unfold n in *; lia)|]). destruct k; destruct Hc.
    - unfold leaf. rewrite NS, nth_error_app1 by auto. exact Hw. }
  assert (G2 : exists t y, s2 = set_val t n y /\ ghost compat ord top A n g w one t).
  { clear E3. assert (X : s1 = set_val s1 n one) by (symmetry; apply set_same; apply G1). revert X G1. generalize one at 1. generalize s1 at 2 3. clear E1.
    revert s1 E2. induction us as [|u us IH]; intros s1 E2 t y -> G; cbn [rms_run] in E2; [injection E2 as <-; eauto|].
    apply Forall_cons_iff in HU as [Hu HU]. destruct u as [o|].
    - destruct Hu as [Hp [Hf Ha]]. destruct (step compat ord top (set_val t n y) o) as [s0 r0|s0|] eqn:Es; try discriminate. cbn [obind] in E2.
      destruct (ghost_step compat ord top Ho Ht A n g w one t y o s0 r0 G Hp Hf Ha Es) as [t' [r' [-> [G' _]]]]. eapply (IH HU _ E2 t' y); auto.
    - destruct (rms_call compat ord top A (set_val t n y) n w true) as [s0 r0|s0|] eqn:Es; try discriminate. cbn [obind] in E2.
      destruct (rms_call_spec compat ord top Ho Ht A n g w one t y s0 r0 G Es) as [t' [gv [mz [st [wv [wz [-> [G' _]]]]]]]]. eapply (IH HU _ E2 t' mz); auto. }
  destruct G2 as [t [y [-> G]]].
  destruct (rms_call_spec compat ord top Ho Ht A n g w one t y s3 r G E3) as [t' [gv [mz [st [wv [wz [-> [G' [Hd [Em [Est [Ew [Ez [Ew' [Nt Hu]]]]]]]]]]]]]]].
  pose proof (fp_Good compat ord top Ho Ht t (gh_plain _ _ _ _ _ _ _ _ t G)) as [Wt _].
  pose proof (fp_Good compat ord top Ho Ht t' (gh_plain _ _ _ _ _ _ _ _ t' G')) as [Wt' _].
  exists gv, mz, st, wv, wz. split.
  { eapply (denotes_local (set_val t n y) t n); eauto. intros v Hv _. apply val_other. lia. }
  split; auto. split.
  { rewrite val_set, Nat.eqb_refl; auto. rewrite (wf_vals _ Wt'). pose proof (gh_leaf _ _ _ _ _ _ _ _ t' G') as L. unfold leaf in L. now apply nth_error_lt in L. }
  split; auto. rewrite !val_other by lia. repeat (split; auto).
  intros x Hx Hxw Hxn. rewrite !val_other by auto. now apply Hu.
Qed.

(** hypotheses are met: w = 2, gradient w, two calls with an evaluation in between *)
Lemma C38_rmsprop_nonvacuous_lemma : forall lr d eps : R,
  let A := real_arith lr d eps in
  let ops := [ELeaf (Some 2%R); EOp [0] (fun1 (fun x => x))] in
  let us := [UCall; UOp (EEval 1)] in
  exists s s1 s2 s3 r, run (fun _ _ => true) audience least einit ops = Done s tt /\ Forall plain ops /\ Forall no_freeze ops /\
    leaf s 0 /\ 1 < length (nodes s) /\ length (nodes s) = 2 /\
    run (fun _ _ => true) audience least s (rms_ops A 2 1 1%R) = Done s1 tt /\
    Forall (fun u => match u with UOp o => plain o /\ no_freeze o /\ avoids 2 o | UCall => True end) us /\
    rms_run (fun _ _ => true) audience least A 2 0 s1 us = Done s2 tt /\
    rms_call (fun _ _ => true) audience least A s2 2 0 true = Done s3 r /\
    val s2 2 = Some (d * 1 + (1 - d) * 2 ^ 2)%R /\
    val s2 0 = Some (2 - 2 * lr / (sqrt (d * 1 + (1 - d) * 2 ^ 2) + eps))%R /\
    val s3 2 = Some (d * 1 + (1 - d) * (2 - 2 * lr / (sqrt (d * 1 + (1 - d) * 2 ^ 2) + eps)) ^ 2)%R.
Proof.
  intros lr d eps. cbv zeta. do 5 eexists. split; [cbv -[IZR Rplus Rmult Rdiv sqrt pow Rminus]; reflexivity|].
  split; [repeat constructor|]. split; [repeat constructor|]. split; [reflexivity|]. split; [cbn; lia|]. split; [reflexivity|].
  split; [cbv -[IZR Rplus Rmult Rdiv sqrt pow Rminus]; reflexivity|]. split; [repeat constructor|].
  split; [cbv -[IZR Rplus Rmult Rdiv sqrt pow Rminus]; reflexivity|]. split; [cbv -[IZR Rplus Rmult Rdiv sqrt pow Rminus]; reflexivity|].
  split; [reflexivity|]. split; reflexivity.
Qed.

(** Refuted: the momentum does not accumulate. For every learning rate, epsilon and discount
    factor other than 0 and 1, after a first call the second call does not set the momentum to
    discount * momentum + (1 - discount) * gradient^2. *)
Lemma C38_rmsprop_refuted_lemma : forall lr d eps : R, d <> 0%R -> d <> 1%R ->
  let A := real_arith lr d eps in
  exists ops s s1 s2 s3 r m1 g, run (fun _ _ => true) audience least einit ops = Done s tt /\
    run (fun _ _ => true) audience least s (rms_ops A (length (nodes s)) 1 1%R) = Done s1 tt /\
    rms_run (fun _ _ => true) audience least A (length (nodes s)) 0 s1 [UCall] = Done s2 tt /\
    rms_call (fun _ _ => true) audience least A s2 (length (nodes s)) 0 true = Done s3 r /\
    val s2 (length (nodes s)) = Some m1 /\ denotes s2 1 (Some g) /\ val s3 (length (nodes s)) <> announced A m1 g.
Proof.
  intros lr d eps H0 H1. cbv zeta. exists [ELeaf (Some 2%R); EOp [0] (fun1 (fun x => x))]. do 5 eexists.
  exists (d * 1 + (1 - d) * 2 ^ 2)%R, (2 - 2 * lr / (sqrt (d * 1 + (1 - d) * 2 ^ 2) + eps))%R.
  split; [cbv -[IZR Rplus Rmult Rdiv sqrt pow Rminus]; reflexivity|]. cbn [length nodes].
  split; [cbv -[IZR Rplus Rmult Rdiv sqrt pow Rminus]; reflexivity|].
  split; [cbv -[IZR Rplus Rmult Rdiv sqrt pow Rminus]; reflexivity|].
  split; [cbv -[IZR Rplus Rmult Rdiv sqrt pow Rminus]; reflexivity|].
  split; [reflexivity|]. split.
  - eapply (den_op _ 1 [0] _ [Some _] [_] _); [eexists; reflexivity|constructor; [refine (den_leaf _ 0 _); reflexivity|constructor]|reflexivity|reflexivity].
  - unfold announced, val. cbn [nth_error vals real_arith add_ scale_d scale_1d square]. intros C. injection C as C.
    apply Rplus_eq_reg_r in C. apply (Rmult_eq_reg_l d) in C; auto. apply H1. lra.
Qed.

(** Refuted: updaters called one after the other do not use the gradients at the point the calls
    started from. With loss a * b, a = b = 8 and learning rate 1 / 2 (here: halving), simultaneous descent would leave b
    at 4, but it goes to 6. *)
Lemma C38_simultaneous_refuted_lemma : exists (A : arith nat) ops (s s' : estate nat),
  run (fun _ _ => true) audience least einit ops = Done s tt /\ Forall plain ops /\ Forall no_freeze ops /\
  operation s 4 [2] (fun1 (scale_lr A)) /\ operation s 5 [3] (fun1 (scale_lr A)) /\
  denotes s 3 (Some 8) /\ val s 1 = Some 8 /\ sub_ A 8 (scale_lr A 8) = Some 4 /\
  vgb_calls (fun _ _ => true) audience least A s [(0, 4); (1, 5)] = Done s' tt /\ val s' 0 = Some 4 /\ val s' 1 = Some 6.
Proof.
  exists (mkArith nat Nat.div2 (fun x => x) (fun x => x) (fun x => x) (fun x => x) (fun x => x) (fun x y => Some (x + y)) (fun x y => Some x) (fun x y => Some (x - y))).
  exists [ELeaf (Some 8); ELeaf (Some 8); EOp [1] (fun1 (fun x => x)); EOp [0] (fun1 (fun x => x)); EOp [2] (fun1 Nat.div2); EOp [3] (fun1 Nat.div2)].
  do 2 eexists. split; [vm_compute; reflexivity|]. split; [repeat constructor|]. split; [repeat constructor|].
  split; [eexists; reflexivity|]. split; [eexists; reflexivity|]. split.
  { eapply (den_op _ 3 [0] _ [Some 8] [8] 8); [eexists; reflexivity|constructor; [refine (den_leaf _ 0 _); reflexivity|constructor]|reflexivity|reflexivity]. }
  split; [reflexivity|]. split; [reflexivity|]. split; [vm_compute; reflexivity|]. split; reflexivity.
Qed.

(** Updates are computed for exactly the variables among the leaves of the root that are not ignored;
    ignore_subtree ignores the variables below a node until clear_ignore; clones
    keep this. *)
Lemma C38_targets_lemma : forall leaves_of is_var u root fresh ws u',
  calculate leaves_of is_var u root fresh = Ok (ws, u') ->
  (forall w, In w ws <-> In w (leaves_of root) /\ is_var w = true /\ ~ In w (u_ignored u)) /\
  (NoDup (leaves_of root) -> NoDup ws) /\ u_ignored u' = u_ignored u.
Proof.
  intros lv iv u root fresh ws u' E. unfold calculate in E.
  assert (X : ws = targets lv iv u root /\ u_ignored u' = u_ignored u).
  { destruct (u_kind u); try (injection E as <- <-; auto); destruct (targets lv iv u root); try discriminate; injection E as <- <-; auto. }
  destruct X as [-> Hi]. split; [|split; auto].
  - intros w. unfold targets. rewrite filter_In, andb_true_iff, negb_true_iff. unfold mem_nat.
    assert (Y : existsb (Nat.eqb w) (u_ignored u) = false <-> ~ In w (u_ignored u)); [|tauto].
    split; intros H.
    + intros C. assert (Z : existsb (Nat.eqb w) (u_ignored u) = true) by (apply existsb_exists; exists w; split; auto; apply Nat.eqb_refl). congruence.
    + apply not_true_is_false. intros C. apply existsb_exists in C as [v [Hv Ev]]. apply Nat.eqb_eq in Ev as ->. contradiction.
  - intros N. now apply NoDup_filter.
Qed.
Lemma C38_ignore_lemma : forall leaves_of is_var u sub w,
  (In w (u_ignored (ignore_subtree leaves_of is_var u sub)) <-> In w (u_ignored u) \/ (In w (leaves_of sub) /\ is_var w = true)) /\
  ~ In w (u_ignored (clear_ignore u)) /\ u_ignored (clone_updater u) = u_ignored u.
Proof. intros lv iv u sub w. split; [|split; [intros []|reflexivity]]. cbn. rewrite in_app_iff, filter_In. tauto. Qed.

(** Refuted: the momentum, adadelta and adagrad updaters compute nothing: calculate throws as soon
    as there is a variable to update. *)
Lemma C38_unimplemented_refuted_lemma : forall leaves_of is_var u root fresh,
  u_kind u = Momentum \/ u_kind u = Adadelta \/ u_kind u = Adagrad ->
  (exists w, In w (leaves_of root) /\ is_var w = true /\ ~ In w (u_ignored u)) ->
  calculate leaves_of is_var u root fresh = Throw.
Proof.
  intros lv iv u root fresh Hk [w [Hw [Hv Hi]]]. unfold calculate.
  assert (X : In w (targets lv iv u root)).
  { unfold targets. apply filter_In. split; auto. rewrite Hv. cbn. apply negb_true_iff, not_true_is_false. intros C. unfold mem_nat in C. apply existsb_exists in C as [v [Hv' Ev]]. apply Nat.eqb_eq in Ev as ->. contradiction. }
  destruct Hk as [->|[->| ->]]; destruct (targets lv iv u root); try destruct X; reflexivity.
Qed.
Lemma C38_targets_nonvacuous_lemma :
  let lv := fun r => if r =? 9 then [3; 4; 5] else [4] in
  let u := ignore_subtree lv (fun l => negb (l =? 5)) (mkUpd Rms [] []) 8 in
  calculate lv (fun l => negb (l =? 5)) u 9 20 = Ok ([3], mkUpd Rms [4] [20]).
Proof. reflexivity. Qed.

(** hypotheses of the vanilla law are met *)
Lemma C38_vgb_nonvacuous_lemma : forall lr d eps : R,
  let A := real_arith lr d eps in
  let ops := [ELeaf (Some 2%R); EOp [0] (fun1 (fun x => x)); EOp [1] (fun1 (scale_lr A))] in
  exists s s' r, run (fun _ _ => true) audience least einit ops = Done s tt /\ Forall plain ops /\ Forall no_freeze ops /\
    operation s 2 [1] (fun1 (scale_lr A)) /\ leaf s 0 /\
    vgb_call (fun _ _ => true) audience least A s 0 2 true = Done s' r /\ val s' 0 = Some (2 - 2 * lr)%R.
Proof.
  intros lr d eps. cbv zeta. do 3 eexists. split; [cbv -[IZR Rplus Rmult Rdiv sqrt pow Rminus]; reflexivity|].
  split; [repeat constructor|]. split; [repeat constructor|]. split; [eexists; reflexivity|]. split; [reflexivity|].
  split; [cbv -[IZR Rplus Rmult Rdiv sqrt pow Rminus]; reflexivity|]. reflexivity.
Qed.
