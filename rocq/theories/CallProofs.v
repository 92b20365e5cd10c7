(** Proofs about calling training functions. *)
From Verif Require Import Common EvalModel EvalSpec EvalProofs EvalLaws UpdaterModel UpdaterSpec UpdaterProofs UpdaterLaws TrainModel TrainSpec TrainProofs CallModel CallSpec.

Section P.
Context {V : Type} (compat : V -> V -> bool).
Context (ord : list (enode V) -> nat -> list nat) (top : list (enode V) -> list nat -> option nat).
Context (Hord : valid_order ord) (Htop : valid_top top).
Implicit Types s t : estate V.
Local Notation step := (step compat ord top).
Local Notation history := (history compat ord top).

Lemma put_ok s w r s' : history s -> put compat ord top s w r = Done s' tt ->
  exists z, r = Ok z /\ history s' /\ leaf s w /\ val s' w = Some z /\ nodes s' = nodes s /\ (forall v, leaf s v -> v <> w -> val s' v = val s v) /\
    forall n, is_op (nodes s) n = true -> is_frozen s n = true -> is_op (nodes s') n = true /\ is_frozen s' n = true /\ val s' n = val s n.
Proof.
  intros H E. destruct r as [z| | |]; try discriminate. cbn [put] in E. destruct (step s (EAssign w z true)) as [s1 r1|s1|] eqn:E1; try discriminate. cbn [obind] in E. injection E as <-.
  destruct (assign_val compat ord top Hord Htop s w z true s1 r1 (proj1 (h_Good compat ord top Hord Htop s H)) E1) as (Lw & V1 & N1 & U1).
  exists z. split; [reflexivity|]. split; [apply (h_step compat ord top s (EAssign w z true) s1 r1 H eq_refl E1)|]. split; [exact Lw|]. split; [exact V1|]. split; [exact N1|]. split; [exact U1|].
  intros n On Fn. destruct (h_run_on compat ord top s H) as [ops Eo].
  pose proof (C29_frozen_keeps_lemma V compat ord top ops s n (EAssign w z true) Hord Htop Eo (is_op_operation s n On) Fn Logic.I) as K. rewrite E1 in K. rewrite N1. tauto.
Qed.

(** what one function does in state [s] of a frozen graph, the results being those of [s'] *)
Definition did s s' (c : closure V) : Prop :=
  match c with
  | KNone => True
  | KData w f => leaf s w /\ exists y z, val s w = Some y /\ f y = Ok z /\ val s' w = Some z
  | KNode w n f => leaf s w /\ exists x y z, val s n = Some x /\ val s w = Some y /\ f y x = Ok z /\ val s' w = Some z
  end.
Lemma closures_frozen l : forall s s', history s -> (forall w n f, In (KNode w n f) l -> is_op (nodes s) n = true /\ is_frozen s n = true) -> NoDup (flat_map target l) ->
  run_closures compat ord top s l = Done s' tt ->
  history s' /\ nodes s' = nodes s /\ (forall v, leaf s v -> ~ In v (flat_map target l) -> val s' v = val s v) /\ forall c, In c l -> did s s' c.
Proof.
  induction l as [|c l IH]; intros s s' H Hf Nd E.
  - injection E as <-. split; [exact H|]. split; [reflexivity|]. split; [auto|]. intros c [].
  - cbn [run_closures] in E. destruct (run_closure compat ord top s c) as [s1 []|s1|] eqn:Ec; try discriminate. cbn [obind] in E.
    assert (S : history s1 /\ nodes s1 = nodes s /\ (forall v, leaf s v -> ~ In v (target c) -> val s1 v = val s v) /\ did s s1 c /\
      forall n, is_op (nodes s) n = true -> is_frozen s n = true -> is_op (nodes s1) n = true /\ is_frozen s1 n = true /\ val s1 n = val s n).
    { destruct c as [|w f|w n f]; cbn [run_closure] in Ec.
      - injection Ec as <-. repeat (split; [auto; exact Logic.I|]). auto.
      - destruct (val s w) as [y|] eqn:Vy; [|discriminate]. destruct (put_ok s w (f y) s1 H Ec) as (z & Ez & H1 & Lw & V1 & N1 & U1 & K1).
        split; [exact H1|]. split; [exact N1|]. split; [intros v Hv Hn; apply U1; auto; intros ->; apply Hn; now left|]. split; [split; [exact Lw|eauto 6]|exact K1].
      - destruct (Hf w n f (or_introl eq_refl)) as [On Fn].
        assert (Ev : step s (EEval n) = Done s (val s n)).
        { destruct (is_op_operation s n On) as (a & g & d & Hn). cbn [EvalModel.step]. rewrite Hn, Fn. reflexivity. }
        rewrite Ev in Ec. cbn [obind] in Ec. destruct (val s n) as [x|] eqn:Vx; [|discriminate]. destruct (val s w) as [y|] eqn:Vy; [|discriminate].
        destruct (put_ok s w (f y x) s1 H Ec) as (z & Ez & H1 & Lw & V1 & N1 & U1 & K1).
        split; [exact H1|]. split; [exact N1|]. split; [intros v Hv Hn; apply U1; auto; intros ->; apply Hn; now left|]. split; [split; [exact Lw|eauto 8]|exact K1]. }
    destruct S as (H1 & N1 & U1 & D1 & K1). cbn [flat_map] in Nd.
    assert (Nd1 : NoDup (flat_map target l)) by (clear - Nd; induction (target c) as [|a t IHt]; [exact Nd|]; cbn in Nd; apply NoDup_cons_iff in Nd; apply IHt, Nd).
    assert (Dj : forall v, In v (target c) -> ~ In v (flat_map target l)).
    { intros v Hv Hl. clear - Nd Hv Hl. induction (target c) as [|a t IHt]; [destruct Hv|]. cbn in Nd. apply NoDup_cons_iff in Nd as [N1 N2]. destruct Hv as [->|Hv]; [apply N1, in_or_app; now right|auto]. }
    destruct (IH s1 s' H1) as (H' & N' & U' & D'); auto.
    { intros w n f Hi. destruct (Hf w n f (or_intror Hi)) as [On Fn]. destruct (K1 n On Fn) as (A1 & A2 & _). auto. }
    assert (Lf : forall v, leaf s v -> leaf s1 v) by (intros v; unfold leaf; now rewrite N1).
    split; [exact H'|]. split; [congruence|]. split.
    + intros v Hv Hi. cbn [flat_map] in Hi. rewrite U'; [apply U1; auto|now apply Lf|]; intros C; apply Hi, in_or_app; auto.
    + intros c' [<-|Hi].
      * destruct c as [|w f|w n f]; cbn [did] in *; [exact Logic.I| |].
        -- destruct D1 as (Lw & y & z & A1 & A2 & A3). split; [exact Lw|]. exists y, z. rewrite U'; [auto|now apply Lf|apply Dj; now left].
        -- destruct D1 as (Lw & x & y & z & A0 & A1 & A2 & A3). split; [exact Lw|]. exists x, y, z. rewrite U'; [auto|now apply Lf|apply Dj; now left].
      * specialize (D' c' Hi). assert (T : forall w, In w (target c') -> leaf s1 w -> leaf s w /\ val s1 w = val s w).
        { intros w Hw Lw. assert (leaf s w) by (unfold leaf in *; now rewrite <- N1). split; [assumption|]. apply U1; [assumption|]. intros C. apply (Dj w C). apply in_flat_map. eauto. }
        destruct c' as [|w f|w n f]; cbn [did] in *; [exact Logic.I| |].
        -- destruct D' as (Lw & y & z & A1 & A2 & A3). destruct (T w (or_introl eq_refl) Lw) as [Lw' Vw]. split; [exact Lw'|]. exists y, z. rewrite <- Vw. auto.
        -- destruct D' as (Lw & x & y & z & A0 & A1 & A2 & A3). destruct (T w (or_introl eq_refl) Lw) as [Lw' Vw]. split; [exact Lw'|]. exists x, y, z. rewrite <- Vw. split; [|auto].
           destruct (Hf w n f (or_intror Hi)) as [On Fn]. destruct (K1 n On Fn) as (_ & _ & Vn). now rewrite <- Vn.
Qed.

Lemma linked_man s a b : WF s -> linked s a b -> is_op (nodes s) a = true /\ is_op (nodes s) b = true /\ man s a = man s b.
Proof.
  intros W H. induction H as [a args f [d Ho]|a b args f args' f' [d Ho] [d' Ho'] Hi|a b _ IH|a b c _ IH1 _ IH2].
  - pose proof (is_op_intro _ _ _ _ _ Ho). auto.
  - pose proof (is_op_intro _ _ _ _ _ Ho) as Oa. pose proof (is_op_intro _ _ _ _ _ Ho') as Ob. split; [exact Oa|]. split; [exact Ob|]. eapply (wf_man _ W); eauto.
  - destruct IH as (A & B & C). auto.
  - destruct IH1 as (A & B & C), IH2 as (A' & B' & C'). repeat split; auto. congruence.
Qed.
Lemma upstream_linked s b v : (exists args f, operation s b args f) -> WF s -> upstream s b v -> linked s b v.
Proof.
  intros (args & f & Ho) W H. induction H as [v|v args' f' a b Hv Hi Hu IH].
  - now apply (link_self s v args f).
  - specialize (IH Ho). apply (link_trans s b a v IH). destruct (linked_man s b a W IH) as (_ & Oa & _). destruct (is_op_operation s a Oa) as (x & g & Ha). exact (link_arg s a v x g args' f' Ha Hv Hi).
Qed.
Lemma connected_linked s a b : WF s -> connected s a b -> linked s a b.
Proof.
  intros W (c & args & f & Ho & Ha & Hb). assert (Hc : exists args f, operation s c args f) by eauto.
  apply (link_trans s a c b); [apply link_sym|]; now apply upstream_linked.
Qed.
Lemma freeze_linked s e s' r : history s -> step s (EFreeze e true) = Done s' r ->
  history s' /\ nodes s' = nodes s /\ (forall v, leaf s v -> val s' v = val s v) /\
  forall n, linked s n e -> is_frozen s' n = true /\ denotes s' n (val s' n).
Proof.
  intros H E. pose proof (h_Good compat ord top Hord Htop s H) as G. pose proof (h_step compat ord top s (EFreeze e true) s' r H Logic.I E) as H'. split; [exact H'|].
  cbn [EvalModel.step] in E. destruct (nth_error (nodes s) e) as [[|args f d]|] eqn:He; try discriminate.
  destruct (flush_all compat ord top s e) as [s1 u|s1|] eqn:Ef; try discriminate. cbn [obind] in E. injection E as <- _. cbn [nodes].
  destruct (flush_all_Good compat ord top Hord Htop s e s1 u G Ef) as (G1 & X & (S1 & S2)).
  split; [apply X|]. split; [intros v Hv; apply X, Hv|]. intros n Hc. destruct (linked_man s n e (proj1 G) Hc) as (On & _ & Mn).
  assert (M1 : man s1 n = man s e) by (unfold man in *; rewrite (x_mgr _ _ X); exact Mn).
  assert (M2 : man s1 e = man s e) by (unfold man in *; now rewrite (x_mgr _ _ X)).
  split.
  - unfold is_frozen. cbn [frozen]. unfold man at 1. cbn [mgr]. change (nth n (mgr s1) 0) with (man s1 n). rewrite M1, M2. cbn. now rewrite Nat.eqb_refl.
  - destruct G1 as (W1 & _ & _ & I1). assert (Hn : n < length (nodes s1)) by (rewrite (x_nodes _ _ X); now apply is_op_lt in On).
    destruct (Inv_denotes s1 (fun _ => True) (man s e) W1) with (v := n) as [D _]; auto.
    + intros v a g d' Hv Hm HQ HR. eapply I1; eauto.
    + eapply denotes_ext with (s' := s1); [| |apply (h_Good compat ord top Hord Htop _ H')|exact D]; reflexivity.
Qed.

Lemma call_ok s e l s' : history s -> NoDup (flat_map target l) -> (forall w n f, In (KNode w n f) l -> linked s n e) ->
  frozen_call compat ord top s e l = Done s' tt ->
  history s' /\ is_frozen s' e = false /\ nodes s' = nodes s /\ (forall v, leaf s v -> ~ In v (flat_map target l) -> val s' v = val s v) /\
  forall c, In c l -> match c with
    | KNone => True
    | KData w f => leaf s w /\ exists y z, val s w = Some y /\ f y = Ok z /\ val s' w = Some z
    | KNode w n f => leaf s w /\ exists x y z, denotes s n (Some x) /\ val s w = Some y /\ f y x = Ok z /\ val s' w = Some z
    end.
Proof.
  intros H Nd Hc E. unfold frozen_call in E.
  destruct (step s (EFreeze e true)) as [s1 r1|s1|] eqn:E1; try discriminate. cbn [obind] in E.
  destruct (run_closures compat ord top s1 l) as [s2 []|s2|] eqn:E2; try discriminate. cbn [obind] in E.
  destruct (step s2 (EFreeze e false)) as [s3 r3|s3|] eqn:E3; try discriminate. cbn [obind] in E. injection E as <-.
  destruct (freeze_linked s e s1 r1 H E1) as (H1 & N1 & U1 & D1).
  assert (W : WF s) by apply (h_Good compat ord top Hord Htop s H).
  destruct (closures_frozen l s1 s2 H1) as (H2 & N2 & U2 & D2); auto.
  { intros w n f Hi. destruct (D1 n (Hc w n f Hi)) as [F _]. split; [|exact F]. rewrite N1. apply (linked_man s n e W (Hc w n f Hi)). }
  destruct (unfreeze_ok compat ord top s2 e s3 r3 H2 E3) as (H3 & N3 & V3 & F3). split; [exact H3|]. split; [exact F3|]. split; [congruence|].
  assert (Vv : forall v, val s3 v = val s2 v) by (intros v; unfold val; now rewrite V3).
  assert (Lf : forall v, leaf s1 v <-> leaf s v) by (intros v; unfold leaf; now rewrite N1).
  split; [intros v Hv Hi; rewrite Vv, U2; [now apply U1|now apply Lf|exact Hi]|].
  intros c Hi. specialize (D2 c Hi). destruct c as [|w f|w n f]; cbn [did] in D2; [exact Logic.I| |].
  - destruct D2 as (Lw & y & z & A1 & A2 & A3). apply Lf in Lw. split; [exact Lw|]. exists y, z. rewrite Vv, <- (U1 w Lw). auto.
  - destruct D2 as (Lw & x & y & z & A0 & A1 & A2 & A3). apply Lf in Lw. split; [exact Lw|]. exists x, y, z. rewrite Vv, <- (U1 w Lw). split; [|auto].
    rewrite <- A0. apply (denotes_ext s s1 N1 U1 n W). apply (D1 n (Hc w n f Hi)).
Qed.
End P.

(** ---- graphs of expressions ---- *)
From Coq Require Import Reals.
From Verif Require Import ElemModel RealNum GradModel GroupModel.
Section S.
Context (fresh : nat -> R) (use : bool) (loc : nat -> nat).
Local Notation graph := (estate (tens R)).
Implicit Types s : graph.
Local Notation gshows := (gshows fresh use loc).

Lemma gresult_ok e t : gresult fresh use e = Some t -> geval Rnum fresh use INR nothing e = Ok t.
Proof. unfold gresult. destruct (geval _ _ _ _ _ e); congruence. Qed.
Lemma applies1_den s n k P t : applies1 fresh use s n k P -> denotes s n (Some t) -> exists a x, P a /\ denotes s a (Some x) /\ geval Rnum fresh use INR nothing (k (GConst x)) = Ok t.
Proof.
  intros (a & f & [d Ho] & Hf & Ha) D. inversion D as [w Hw Ew|w args g os vs x [d' Hn] HF Has Hg|]; subst.
  - unfold leaf in Hw. congruence.
  - rewrite Ho in Hn. injection Hn as <- <- <-. inversion HF as [|? o ? os' D1 F1]; subst. inversion F1; subst. cbn in Has. destruct o as [x|]; [|discriminate]. injection Has as <-.
    exists a, x. split; [exact Ha|]. split; [exact D1|]. apply gresult_ok. now rewrite <- Hf.
Qed.
Lemma applies2_den s n k P Q t : applies2 fresh use s n k P Q -> denotes s n (Some t) ->
  exists a b x y, P a /\ Q b /\ denotes s a (Some x) /\ denotes s b (Some y) /\ geval Rnum fresh use INR nothing (k (GConst x) (GConst y)) = Ok t.
Proof.
  intros (a & b & f & [d Ho] & Hf & Ha & Hb) D. inversion D as [w Hw Ew|w args g os vs x [d' Hn] HF Has Hg|]; subst.
  - unfold leaf in Hw. congruence.
  - rewrite Ho in Hn. injection Hn as <- <- <-. inversion HF as [|? o ? os' D1 F1]; subst. inversion F1 as [|? o' ? os'' D2 F2]; subst. inversion F2; subst. cbn in Has.
    destruct o as [x|]; [|discriminate]. destruct o' as [y|]; [|discriminate]. injection Has as <-.
    exists a, b, x, y. repeat (split; [assumption|]). apply gresult_ok. now rewrite <- Hf.
Qed.
Lemma gshows_eval s (env : nat -> tens R) (He : forall v t, denotes s (loc v) (Some t) -> env v = t) e : forall n t, gshows s n e -> denotes s n (Some t) -> geval Rnum fresh use INR env e = Ok t.
Proof.
  induction e; intros n t0 Hs D; cbn [CallSpec.gshows] in Hs;
    try (destruct (applies1_den _ _ _ _ _ Hs D) as (a0 & x0 & P & D1 & E); cbn [geval] in *; rewrite (IHe _ _ P D1); exact E);
    try (destruct (applies2_den _ _ _ _ _ _ Hs D) as (a0 & b0 & x0 & y0 & P & Q & D1 & D2 & E); cbn [geval] in *; rewrite (IHe1 _ _ P D1), (IHe2 _ _ Q D2); exact E).
  - subst n. cbn [geval]. now rewrite (He _ _ D).
  - destruct Hs as (Hl & Hv & _). pose proof (den_leaf_inv s _ _ Hl D) as E. cbn [geval]. congruence.
Qed.
End S.
