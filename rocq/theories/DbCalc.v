(** Calculus of shares. *)
From Coq Require Import Reals Lra Lia.
From Verif Require Import Common MatmulSpec GradProofs NetProofs DbSpec.
Local Open Scope R_scope.

Lemma sum_pos f n : (0 < n)%nat -> (forall i, (i < n)%nat -> 0 < f i) -> 0 < Sum f n.
Proof.
  intros Hn H. destruct n as [|n]; [lia|]. clear Hn. induction n as [|n IH]; [cbn; specialize (H 0%nat ltac:(lia)); lra|].
  change (Sum f (S (S n))) with (Sum f (S n) + f (S n)). specialize (IH (fun i Hi => H i ltac:(lia))). specialize (H (S n) ltac:(lia)). lra.
Qed.
Lemma sum_exp_pos z n : (0 < n)%nat -> 0 < Sum (fun j => exp (z j)) n.
Proof. intros H. apply sum_pos; auto. intros. apply exp_pos. Qed.
Lemma sum_scale f k n : Sum (fun i => k * f i) n = k * Sum f n.
Proof. induction n as [|n IH]; cbn [sumn]; [lra|rewrite IH; lra]. Qed.
Lemma sum_plus f g n : Sum (fun i => f i + g i) n = Sum f n + Sum g n.
Proof. induction n as [|n IH]; cbn [sumn]; [lra|rewrite IH; lra]. Qed.
Lemma sum_const k n : Sum (fun _ => k) n = k * INR n.
Proof. induction n as [|n IH]; [cbn; lra|]. change (Sum (fun _ => k) (S n)) with (Sum (fun _ => k) n + k). rewrite IH, S_INR. lra. Qed.
Lemma share_pos z n i : (0 < n)%nat -> 0 < share z n i.
Proof. intros H. apply Rdiv_lt_0_compat; [apply exp_pos|now apply sum_exp_pos]. Qed.
Lemma share_sum z n : (0 < n)%nat -> Sum (share z n) n = 1.
Proof.
  intros H. pose proof (sum_exp_pos z n H) as P. rewrite (sumR_ext _ (fun i => / Sum (fun j => exp (z j)) n * exp (z i))) by (intros; unfold share; field; lra).
  rewrite sum_scale. field. lra.
Qed.
Lemma ln_share z n i : (0 < n)%nat -> ln (share z n i) = z i - ln (Sum (fun j => exp (z j)) n).
Proof.
  intros H. pose proof (sum_exp_pos z n H) as P. unfold share, Rdiv. rewrite ln_mult; [|apply exp_pos|now apply Rinv_0_lt_compat]. rewrite ln_exp, ln_Rinv by exact P. lra.
Qed.
Lemma log_cost_eq z n : (0 < n)%nat -> log_cost z n = ln (Sum (fun j => exp (z j)) n) - Sum z n / INR n.
Proof.
  intros H. unfold log_cost. set (S := ln _). rewrite (sumR_ext _ (fun i => z i + - S)) by (intros; rewrite ln_share by exact H; unfold S; lra).
  rewrite sum_plus, sum_const. assert (0 < INR n) by now apply lt_0_INR. field. lra.
Qed.
Lemma log_cost_lim (f : nat -> R -> R) (D : nat -> R) n x : (0 < n)%nat -> (forall i, (i < n)%nat -> derivable_pt_lim (f i) x (D i)) ->
  derivable_pt_lim (fun y => log_cost (fun i => f i y) n) x (Sum (fun i => (share (fun j => f j x) n i - 1 / INR n) * D i) n).
Proof.
  intros Hn H. pose proof (sum_exp_pos (fun j => f j x) n Hn) as P. assert (Nr : 0 < INR n) by now apply lt_0_INR.
  set (S := Sum (fun j => exp (f j x)) n) in *.
  assert (H1 : derivable_pt_lim (fun y => Sum (fun j => exp (f j y)) n) x (Sum (fun j => exp (f j x) * D j) n)).
  { apply (lim_sum (fun j y => exp (f j y))). intros q Hq. exact (derivable_pt_lim_comp (f q) exp x _ _ (H q Hq) (derivable_pt_lim_exp _)). }
  assert (H2 : derivable_pt_lim (fun y => ln (Sum (fun j => exp (f j y)) n)) x (/ S * Sum (fun j => exp (f j x) * D j) n)).
  { exact (derivable_pt_lim_comp (fun y => Sum (fun j => exp (f j y)) n) ln x _ _ H1 (derivable_pt_lim_ln S P)). }
  assert (H3 : derivable_pt_lim (fun y => Sum (fun j => f j y) n) x (Sum D n)) by now apply (lim_sum (fun j y => f j y)).
  assert (H4 := derivable_pt_lim_minus _ _ x _ _ H2 (derivable_pt_lim_scal _ (/ INR n) x _ H3)).
  apply (lim_ext (fun y => ln (Sum (fun j => exp (f j y)) n) - / INR n * Sum (fun j => f j y) n)).
  - intros y. rewrite log_cost_eq by exact Hn. unfold Rdiv. ring.
  - apply (lim_val _ _ (/ S * Sum (fun j => exp (f j x) * D j) n - / INR n * Sum D n)); [|exact H4].
    rewrite (sumR_ext (fun i => (share (fun j => f j x) n i - 1 / INR n) * D i) (fun i => / S * (exp (f i x) * D i) + (- / INR n) * D i)).
    + rewrite sum_plus, !sum_scale. ring.
    + intros i _. unfold share. fold S. field. split; lra.
Qed.
(** one row of several has less than everything *)
Lemma share_less z n i : (i < n)%nat -> (1 < n)%nat -> share z n i < 1.
Proof.
  intros Hi Hn. pose proof (sum_exp_pos z n ltac:(lia)) as P. unfold share. apply (Rmult_lt_reg_r (Sum (fun j => exp (z j)) n)); [exact P|]. unfold Rdiv. rewrite Rmult_assoc, Rinv_l by lra. rewrite Rmult_1_r, Rmult_1_l. clear P.
  assert (G : forall m, (forall j, (j < m)%nat -> j <> i -> 0 < exp (z j)) -> ((i < m)%nat -> exp (z i) <= Sum (fun j => exp (z j)) m /\ ((1 < m)%nat -> exp (z i) < Sum (fun j => exp (z j)) m))).
  { intros m _. induction m as [|m IH]; intros Hm; [lia|]. change (Sum (fun j => exp (z j)) (S m)) with (Sum (fun j => exp (z j)) m + exp (z m)).
    destruct (Nat.eq_dec i m) as [E|Ne].
    - rewrite E. split; [|intros H1; pose proof (sum_exp_pos z m ltac:(lia)); lra]. destruct m as [|m]; [cbn; lra|]. pose proof (sum_exp_pos z (S m) ltac:(lia)). lra.
    - destruct (IH ltac:(lia)) as [I1 _]. pose proof (exp_pos (z m)). split; [|intros _]; lra. }
  apply (G n); auto. intros. apply exp_pos.
Qed.
