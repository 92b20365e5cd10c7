(** Proofs about training. *)
From Verif Require Import Common EvalModel EvalSpec EvalProofs EvalLaws UpdaterModel UpdaterSpec UpdaterProofs UpdaterLaws TrainModel TrainSpec.

Section P.
Context {V : Type} (compat : V -> V -> bool).
Context (ord : list (enode V) -> nat -> list nat) (top : list (enode V) -> list nat -> option nat).
Context (Hord : valid_order ord) (Htop : valid_top top).
Context (A : arith V).
Implicit Types s t : estate V.
Local Notation step := (step compat ord top).
Local Notation run := (run compat ord top).
Local Notation history := (history compat ord top).

Lemma h_step s o s' r : history s -> plain o -> step s o = Done s' r -> history s'.
Proof.
  intros [ops [E P]] Hp Es. exists (ops ++ [o]). split; [eapply run_app; eauto; eapply run_one; eauto|]. apply Forall_app; auto.
Qed.
Lemma h_Good s : history s -> Good s.
Proof. intros [ops [E P]]. eapply (run_Good compat ord top); eauto. apply einit_Good. Qed.
Lemma h_run_on s : history s -> exists ops, run_on compat ord top einit ops = Some s.
Proof. intros [ops [E P]]. exists ops. now apply (run_run_on compat ord top). Qed.

Lemma upstream_nodes s s' : nodes s' = nodes s -> forall a v, upstream s a v -> upstream s' a v.
Proof.
  intros E a v H. induction H as [v|v args f a b [d Ho] Hi H IH]; [constructor|]. eapply up_step; [exists d; rewrite E; exact Ho|exact Hi|exact IH].
Qed.
Lemma connected_man s a b : WF s -> connected s a b -> is_op (nodes s) a = true /\ man s a = man s b.
Proof.
  intros W (c & args & f & [d Ho] & Ha & Hb). pose proof (is_op_intro _ _ _ _ _ Ho) as Hc.
  destruct (upstream_man s c a W Ha Hc) as [Oa Ma]. destruct (upstream_man s c b W Hb Hc) as [Ob Mb]. split; [exact Oa|congruence].
Qed.
Lemma is_op_operation s v : is_op (nodes s) v = true -> exists args f, operation s v args f.
Proof. intros H. apply is_op_inv in H as (args & f & d & H). exists args, f, d. exact H. Qed.

(** freezing computes everything in the graph first *)
Lemma freeze_ok s e s' r : history s -> step s (EFreeze e true) = Done s' r ->
  history s' /\ nodes s' = nodes s /\ (forall v, leaf s v -> val s' v = val s v) /\
  forall n, connected s n e -> is_frozen s' n = true /\ denotes s' n (val s' n).
Proof.
  intros H E. pose proof (h_Good s H) as G. pose proof (h_step s (EFreeze e true) s' r H Logic.I E) as H'. split; [exact H'|].
  cbn [EvalModel.step] in E. destruct (nth_error (nodes s) e) as [[|args f d]|] eqn:He; try discriminate.
  destruct (flush_all compat ord top s e) as [s1 u|s1|] eqn:Ef; try discriminate. cbn [obind] in E. injection E as <- _. cbn [nodes].
  destruct (flush_all_Good compat ord top Hord Htop s e s1 u G Ef) as (G1 & X & (S1 & S2)).
  split; [apply X|]. split; [intros v Hv; apply X, Hv|]. intros n Hc. destruct (connected_man s n e (proj1 G) Hc) as [On Mn].
  assert (M1 : man s1 n = man s e) by (unfold man in *; rewrite (x_mgr _ _ X); exact Mn).
  assert (M2 : man s1 e = man s e) by (unfold man in *; now rewrite (x_mgr _ _ X)).
  split.
  - unfold is_frozen. cbn [frozen]. unfold man at 1. cbn [mgr]. change (nth n (mgr s1) 0) with (man s1 n). rewrite M1, M2. cbn. now rewrite Nat.eqb_refl.
  - destruct G1 as (W1 & _ & _ & I1). assert (Hn : n < length (nodes s1)) by (rewrite (x_nodes _ _ X); now apply is_op_lt in On).
    destruct (Inv_denotes s1 (fun _ => True) (man s e) W1) with (v := n) as [D _]; auto.
    + intros v a g d' Hv Hm HQ HR. eapply I1; eauto.
    + eapply denotes_ext with (s' := s1); [| |apply (h_Good _ H')|exact D]; reflexivity.
Qed.

(** the calls use the values of the moment of freezing *)
Lemma calls_frozen l : forall s s', history s -> (forall w n, In (w, n) l -> is_op (nodes s) n = true /\ is_frozen s n = true) -> NoDup (map fst l) ->
  vgb_calls compat ord top A s l = Done s' tt ->
  history s' /\ nodes s' = nodes s /\ (forall v, leaf s v -> ~ In v (map fst l) -> val s' v = val s v) /\
  forall w n, In (w, n) l -> leaf s w /\ exists x y z, val s n = Some x /\ val s w = Some y /\ sub_ A y x = Some z /\ val s' w = Some z.
Proof.
  induction l as [|[w n] l IH]; intros s s' H Hf Nd E.
  - injection E as <-. split; [exact H|]. split; [reflexivity|]. split; [auto|]. intros w n [].
  - cbn [vgb_calls] in E. destruct (vgb_call compat ord top A s w n true) as [s1 r1|s1|] eqn:Ec; try discriminate. cbn [obind] in E.
    destruct (Hf w n (or_introl eq_refl)) as [On Fn]. apply is_op_operation in On. destruct (h_run_on s H) as [ops Eo].
    unfold vgb_call, call_updater in Ec.
    assert (Ev : step s (EEval n) = Done s (val s n)).
    { destruct On as (a & f & d & Hn). cbn [EvalModel.step]. rewrite Hn, Fn. reflexivity. }
    rewrite Ev in Ec. cbn [obind] in Ec. destruct (val s n) as [x|] eqn:Vx; [|discriminate]. destruct (val s w) as [y|] eqn:Vy; [|discriminate].
    destruct (sub_ A y x) as [z|] eqn:Vz; [|discriminate].
    destruct (assign_val compat ord top Hord Htop s w z true s1 r1 (proj1 (h_Good s H)) Ec) as (Lw & V1 & N1 & U1).
    assert (H1 : history s1) by (apply (h_step s (EAssign w z true) s1 r1 H eq_refl Ec)).
    assert (K : forall w' n', In (w', n') l -> (is_op (nodes s1) n' = true /\ is_frozen s1 n' = true) /\ val s1 n' = val s n').
    { intros w' n' Hi. destruct (Hf w' n' (or_intror Hi)) as [O' F']. rewrite N1.
      pose proof (C29_frozen_keeps_lemma V compat ord top ops s n' (EAssign w z true) Hord Htop Eo (is_op_operation s n' O') F' Logic.I) as K. rewrite Ec in K. tauto. }
    cbn [map fst] in Nd. apply NoDup_cons_iff in Nd as [Nw Nd].
    destruct (IH s1 s' H1 (fun w' n' Hi => proj1 (K w' n' Hi)) Nd E) as (H' & N' & U' & D').
    split; [exact H'|]. split; [congruence|].
    assert (Lf : forall v, leaf s v -> leaf s1 v) by (intros v; unfold leaf; now rewrite N1).
    split.
    + intros v Hv Hi. cbn [map fst In] in Hi. rewrite U'; [apply U1|apply Lf|]; auto. 
    + intros w' n' [Hi|Hi].
      * injection Hi as <- <-. split; [exact Lw|]. exists x, y, z. rewrite U' by (auto; now apply Lf). auto.
      * destruct (D' w' n' Hi) as (L' & x' & y' & z' & X1 & X2 & X3 & X4). assert (Hne : w' <> w) by (intros ->; apply Nw; apply (in_map fst) in Hi; exact Hi).
        assert (L0 : leaf s w') by (unfold leaf in *; now rewrite <- N1). split; [exact L0|]. exists x', y', z'. rewrite <- (proj2 (K w' n' Hi)), <- (U1 w' L0 Hne). auto.
Qed.

Lemma unfreeze_ok s e s' r : history s -> step s (EFreeze e false) = Done s' r ->
  history s' /\ nodes s' = nodes s /\ vals s' = vals s /\ is_frozen s' e = false.
Proof.
  intros H E. split; [exact (h_step s (EFreeze e false) s' r H Logic.I E)|]. cbn [EvalModel.step] in E. destruct (nth_error (nodes s) e) as [[|args f d]|] eqn:He; try discriminate. cbn [obind] in E.
  injection E as <- _. split; [reflexivity|]. split; [reflexivity|]. unfold is_frozen. cbn [frozen]. unfold man at 1. cbn [mgr]. fold (man s e).
  apply not_true_is_false. intros C. apply existsb_exists in C as (m & Hm & Em). apply filter_In in Hm as [_ Hm]. rewrite Nat.eqb_sym, Em in Hm. discriminate.
Qed.

Lemma assign_frozen s v y s' r e : history s -> step s (EAssign v y true) = Done s' r -> is_frozen s' e = is_frozen s e.
Proof.
  intros H E. pose proof (proj1 (h_Good s H)) as W. cbn [EvalModel.step] in E. destruct (nth_error (nodes s) v) as [[|]|] eqn:Hn; try discriminate.
  destruct (set_leaf_WF s v y W Hn) as [W1 _]. pose proof (notify_ok compat ord Hord (set_val s v y) v W1) as HN.
  destruct (notify compat ord (set_val s v y) v) as [s2 []|s2|]; try discriminate. injection E as <- _. destruct HN as [_ [X _]].
  rewrite (is_frozen_ext (set_val s v y) s2) by apply X. reflexivity.
Qed.

Lemma train_ok s i o e l x y s' : history s -> NoDup (map fst l) -> (forall w n, In (w, n) l -> connected s n e) ->
  net_train compat ord top A s i o e l x y = Done s' tt ->
  history s' /\ is_frozen s' e = false /\
  exists s0, history s0 /\ fed s s0 i o x y /\ nodes s' = nodes s /\ (forall v, leaf s v -> ~ In v (map fst l) -> val s' v = val s0 v) /\
    forall w n, In (w, n) l -> leaf s w /\ exists x y z, denotes s0 n (Some x) /\ val s0 w = Some y /\ sub_ A y x = Some z /\ val s' w = Some z.
Proof.
  intros H Nd Hc E. unfold net_train in E.
  destruct (step s (EAssign i x true)) as [s1 r1|s1|] eqn:E1; try discriminate. cbn [obind] in E.
  destruct (step s1 (EAssign o y true)) as [s2 r2|s2|] eqn:E2; try discriminate. cbn [obind] in E.
  destruct (step s2 (EFreeze e true)) as [s3 r3|s3|] eqn:E3; try discriminate. cbn [obind] in E.
  destruct (vgb_calls compat ord top A s3 l) as [s4 []|s4|] eqn:E4; try discriminate. cbn [obind] in E.
  destruct (step s4 (EFreeze e false)) as [s5 r5|s5|] eqn:E5; try discriminate. cbn [obind] in E. injection E as <-.
  destruct (assign_val compat ord top Hord Htop s i x true s1 r1 (proj1 (h_Good s H)) E1) as (L1 & V1 & N1 & U1).
  assert (H1 : history s1) by (apply (h_step s (EAssign i x true) s1 r1 H eq_refl E1)).
  destruct (assign_val compat ord top Hord Htop s1 o y true s2 r2 (proj1 (h_Good s1 H1)) E2) as (L2 & V2 & N2 & U2).
  assert (H2 : history s2) by (apply (h_step s1 (EAssign o y true) s2 r2 H1 eq_refl E2)).
  assert (N02 : nodes s2 = nodes s) by congruence.
  destruct (freeze_ok s2 e s3 r3 H2 E3) as (H3 & N3 & U3 & D3).
  assert (Hc2 : forall w n, In (w, n) l -> connected s2 n e).
  { intros w n Hi. destruct (Hc w n Hi) as (c & a & f & [d Ho] & Ua & Ub). exists c, a, f. split; [exists d; now rewrite N02|]. split; apply (upstream_nodes s s2); auto. }
  destruct (calls_frozen l s3 s4 H3) as (H4 & N4 & U4 & D4); auto.
  { intros w n Hi. destruct (D3 n (Hc2 w n Hi)) as [F _]. split; [|exact F]. rewrite N3. apply (connected_man s2 n e (proj1 (h_Good s2 H2)) (Hc2 w n Hi)). }
  destruct (unfreeze_ok s4 e s5 r5 H4 E5) as (H5 & N5 & V5 & F5). split; [exact H5|]. split; [exact F5|].
  assert (Lf : forall v, leaf s v -> leaf s1 v /\ leaf s2 v /\ leaf s3 v) by (intros v; unfold leaf; rewrite N3, N02, N1; auto).
  exists s3. split; [exact H3|]. split.
  { split; [congruence|]. split; [rewrite U3; [exact V2|unfold leaf in *; now rewrite N2]|]. split.
    - intros Hne. rewrite U3 by (apply Lf, L1). rewrite U2; [exact V1|apply Lf, L1|exact Hne].
    - intros v Hv Hi Ho. rewrite U3 by (apply Lf, Hv). rewrite U2; [apply U1|apply Lf|]; auto. }
  split; [congruence|]. assert (V45 : forall v, val s5 v = val s4 v) by (intros v; unfold val; now rewrite V5).
  split.
  - intros v Hv Hi. rewrite V45. apply U4; [apply Lf, Hv|exact Hi].
  - intros w n Hi. destruct (D4 w n Hi) as (Lw & x' & y' & z' & X1 & X2 & X3 & X4). split; [unfold leaf in *; now rewrite <- N02, <- N3|].
    exists x', y', z'. rewrite V45. split; [|auto]. rewrite <- X1. apply (D3 n (Hc2 w n Hi)).
Qed.
End P.

(** ---- graphs of expressions over the real numbers ---- *)
From Coq Require Import Reals Lra.
From Verif Require Import ElemModel ElemProofs RealNum GradModel.
Section S.
Context (fresh : nat -> R) (use : bool) (loc : nat -> nat).
Local Notation graph := (estate (tens R)).
Implicit Types s : graph.
Local Notation shows := (shows Rnum fresh use loc).
Local Notation result_of := (result_of Rnum fresh use).

Lemma result_ok e t : result_of e = Some t -> eval Rnum fresh use nothing e = Ok t.
Proof. unfold TrainSpec.result_of. destruct (eval _ _ _ _ e); congruence. Qed.

Lemma node1_den s n k P t : node1 Rnum fresh use s n k P -> denotes s n (Some t) -> exists a x, P a /\ denotes s a (Some x) /\ eval Rnum fresh use nothing (k (EConst x)) = Ok t.
Proof.
  intros (a & f & [d Ho] & Hf & Ha) D. inversion D as [w Hw Ew|w args g os vs x [d' Hn] HF Has Hg|]; subst.
  - unfold leaf in Hw. congruence.
  - rewrite Ho in Hn. injection Hn as <- <- <-. inversion HF as [|? o ? os' D1 F1]; subst. inversion F1; subst. cbn in Has. destruct o as [x|]; [|discriminate]. injection Has as <-.
    exists a, x. split; [exact Ha|]. split; [exact D1|]. apply result_ok. now rewrite <- Hf.
Qed.
Lemma node2_den s n k P Q t : node2 Rnum fresh use s n k P Q -> denotes s n (Some t) ->
  exists a b x y, P a /\ Q b /\ denotes s a (Some x) /\ denotes s b (Some y) /\ eval Rnum fresh use nothing (k (EConst x) (EConst y)) = Ok t.
Proof.
  intros (a & b & f & [d Ho] & Hf & Ha & Hb) D. inversion D as [w Hw Ew|w args g os vs x [d' Hn] HF Has Hg|]; subst.
  - unfold leaf in Hw. congruence.
  - rewrite Ho in Hn. injection Hn as <- <- <-. inversion HF as [|? o ? os' D1 F1]; subst. inversion F1 as [|? o' ? os'' D2 F2]; subst. inversion F2; subst. cbn in Has.
    destruct o as [x|]; [|discriminate]. destruct o' as [y|]; [|discriminate]. injection Has as <-.
    exists a, b, x, y. repeat (split; [assumption|]). apply result_ok. now rewrite <- Hf.
Qed.
Lemma shows_eval s e : forall n t, shows s n e -> denotes s n (Some t) -> eval Rnum fresh use (leaf_env loc s) e = Ok t.
Proof.
  induction e; intros n t0 Hs D; cbn [TrainSpec.shows] in Hs;
    try (destruct (node1_den _ _ _ _ _ Hs D) as (a0 & x0 & P & D1 & E); cbn [eval] in *; rewrite (IHe _ _ P D1); exact E);
    try (destruct (node2_den _ _ _ _ _ _ Hs D) as (a0 & b0 & x0 & y0 & P & Q & D1 & D2 & E); cbn [eval] in *; rewrite (IHe1 _ _ P D1), (IHe2 _ _ Q D2); exact E).
  - destruct Hs as [-> Hl]. pose proof (den_leaf_inv s _ _ Hl D) as E. cbn [eval]. unfold leaf_env. now rewrite <- E.
  - destruct Hs as (Hl & Hv & _). pose proof (den_leaf_inv s _ _ Hl D) as E. cbn [eval]. congruence.
Qed.
Lemma shows_nodes s s' : nodes s' = nodes s -> (forall n, leaf s n -> (forall v, loc v <> n) -> val s' n = val s n) ->
  forall e n, shows s n e -> shows s' n e.
Proof.
  intros En Hv. assert (Op : forall n a f, operation s n a f -> operation s' n a f) by (intros n a f [d H]; exists d; now rewrite En).
  assert (Lf : forall n, leaf s n -> leaf s' n) by (intros n; unfold leaf; now rewrite En).
  induction e; intros n Hs; cbn [TrainSpec.shows] in *;
    try (destruct Hs as (a & f & Ho & Hf & Ha); exists a, f; split; [now apply Op|split; [exact Hf|now apply IHe]]);
    try (destruct Hs as (a & b & f & Ho & Hf & Ha & Hb); exists a, b, f; split; [now apply Op|split; [exact Hf|split; [now apply IHe1|now apply IHe2]]]).
  - destruct Hs as [-> Hl]. auto.
  - destruct Hs as (Hl & Ht & Hc). split; [auto|]. split; [rewrite Hv; auto|exact Hc].
Qed.
End S.
