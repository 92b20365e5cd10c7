(** Partial derivatives of the free energy of a restricted Boltzmann machine. *)
From Coq Require Import Reals Lra Lia.
From Verif Require Import Common MatmulSpec GradProofs NetProofs RbmSpec.
Local Open Scope R_scope.

Lemma logistic_exp x : exp x / (1 + exp x) = logistic x.
Proof. unfold logistic. rewrite exp_Ropp. pose proof (exp_pos x). field. lra. Qed.

(** the input of hidden unit j *)
Definition act (n : nat) (W : nat -> nat -> R) (hb v : nat -> R) (j : nat) : R := Sum (fun q => v q * W j q) n + hb j.

Lemma lim_softplus (f : R -> R) x l : derivable_pt_lim f x l -> derivable_pt_lim (fun r => ln (1 + exp (f r))) x (logistic (f x) * l).
Proof.
  intros H. pose proof (exp_pos (f x)) as P.
  apply (lim_ext (comp ln (plus_fct (fct_cte 1) (comp exp f)))); [reflexivity|].
  apply (lim_val _ _ (/ (1 + exp (f x)) * (0 + exp (f x) * l))).
  - rewrite <- logistic_exp. field. lra.
  - apply derivable_pt_lim_comp.
    + apply derivable_pt_lim_plus; [apply derivable_pt_lim_const|]. apply derivable_pt_lim_comp; [exact H|apply derivable_pt_lim_exp].
    + apply derivable_pt_lim_ln. unfold plus_fct, fct_cte, comp. lra.
Qed.

Lemma lim_energy n h (W : R -> nat -> nat -> R) (hb vb : R -> nat -> R) v x (dA : nat -> R) (dV : R) :
  (forall j, (j < h)%nat -> derivable_pt_lim (fun r => act n (W r) (hb r) v j) x (dA j)) ->
  derivable_pt_lim (fun r => Sum (fun q => v q * vb r q) n) x dV ->
  derivable_pt_lim (fun r => energy n h (W r) (hb r) (vb r) v) x (- (Sum (fun j => logistic (act n (W x) (hb x) v j) * dA j) h + dV)).
Proof.
  intros HA HV. unfold energy.
  apply (lim_ext (opp_fct (plus_fct (fun r => Sum (fun j => ln (1 + exp (act n (W r) (hb r) v j))) h) (fun r => Sum (fun q => v q * vb r q) n)))); [reflexivity|].
  apply derivable_pt_lim_opp. apply derivable_pt_lim_plus; [|exact HV]. apply lim_sum. intros j Hj. now apply (lim_softplus (fun r => act n (W r) (hb r) v j)), HA.
Qed.
Lemma lim_const c x : derivable_pt_lim (fun _ => c) x 0.
Proof. apply (lim_ext (fct_cte c)); [reflexivity|apply derivable_pt_lim_const]. Qed.
Lemma lim_lin a x : derivable_pt_lim (fun r => a * r) x a.
Proof. apply (lim_ext (mult_real_fct a id)); [reflexivity|]. apply (lim_val _ _ (a * 1)); [ring|]. apply derivable_pt_lim_scal. apply derivable_pt_lim_id. Qed.

(** one entry changed *)
Definition upd1 (f : nat -> R) (k : nat) (x : R) (i : nat) : R := if (i =? k)%nat then x else f i.
Lemma lim_upd1 (v f : nat -> R) n k x : (k < n)%nat -> derivable_pt_lim (fun r => Sum (fun q => v q * upd1 f k r q) n) x (v k).
Proof.
  intros Hk. apply (lim_val _ _ (Sum (fun q => v q * (if (q =? k)%nat then 1 else 0)) n)); [now apply sumR_delta|].
  apply (lim_sum (fun q r => v q * upd1 f k r q)). intros q Hq. unfold upd1. destruct (q =? k)%nat.
  - apply (lim_val _ _ (v q)); [ring|]. apply lim_lin.
  - apply (lim_val _ _ 0); [ring|]. apply lim_const.
Qed.

Section D.
Context (n h : nat) (W : nat -> nat -> R) (hb vb v : nat -> R).
Lemma energy_W j0 q0 : (j0 < h)%nat -> (q0 < n)%nat ->
  derivable_pt_lim (fun r => energy n h (fun j q => if (j =? j0)%nat then upd1 (W j) q0 r q else W j q) hb vb v) (W j0 q0) (- (v q0 * logistic (act n W hb v j0))).
Proof.
  intros Hj Hq.
  apply (lim_val _ _ (- (Sum (fun j => logistic (act n (fun j q => if (j =? j0)%nat then upd1 (W j) q0 (W j0 q0) q else W j q) hb v j) * (v q0 * (if (j =? j0)%nat then 1 else 0))) h + 0))).
  - rewrite (sumR_ext _ (fun j => (logistic (act n W hb v j) * v q0) * (if (j =? j0)%nat then 1 else 0))).
    + rewrite sumR_delta by auto. ring.
    + intros j Hj'. rewrite Rmult_assoc. f_equal. f_equal. unfold act. f_equal. apply sumR_ext. intros q Hq'. f_equal. destruct (Nat.eqb_spec j j0) as [->|]; [|reflexivity].
      unfold upd1. destruct (Nat.eqb_spec q q0) as [->|]; reflexivity.
  - apply (lim_energy n h (fun r j q => if (j =? j0)%nat then upd1 (W j) q0 r q else W j q) (fun _ => hb) (fun _ => vb) v); [|apply lim_const].
    intros j Hj'. unfold act. destruct (j =? j0)%nat.
    + apply (lim_val _ _ (v q0 + 0)); [ring|]. apply (lim_ext (plus_fct (fun r => Sum (fun q => v q * upd1 (W j) q0 r q) n) (fct_cte (hb j)))); [reflexivity|].
      apply derivable_pt_lim_plus; [now apply lim_upd1|apply derivable_pt_lim_const].
    + apply (lim_val _ _ 0); [ring|]. apply lim_const.
Qed.
Lemma energy_hb j0 : (j0 < h)%nat ->
  derivable_pt_lim (fun r => energy n h W (upd1 hb j0 r) vb v) (hb j0) (- logistic (act n W hb v j0)).
Proof.
  intros Hj.
  apply (lim_val _ _ (- (Sum (fun j => logistic (act n W (upd1 hb j0 (hb j0)) v j) * (if (j =? j0)%nat then 1 else 0)) h + 0))).
  - rewrite (sumR_ext _ (fun j => logistic (act n W hb v j) * (if (j =? j0)%nat then 1 else 0))).
    + rewrite sumR_delta by auto. ring.
    + intros j Hj'. f_equal. f_equal. unfold act. f_equal. unfold upd1. destruct (Nat.eqb_spec j j0) as [->|]; reflexivity.
  - apply (lim_energy n h (fun _ => W) (fun r => upd1 hb j0 r) (fun _ => vb) v); [|apply lim_const].
    intros j Hj'. unfold act, upd1. destruct (j =? j0)%nat.
    + apply (lim_val _ _ (0 + 1)); [ring|]. apply (lim_ext (plus_fct (fct_cte (Sum (fun q => v q * W j q) n)) id)); [reflexivity|].
      apply derivable_pt_lim_plus; [apply derivable_pt_lim_const|apply derivable_pt_lim_id].
    + apply lim_const.
Qed.
Lemma energy_vb q0 : (q0 < n)%nat -> derivable_pt_lim (fun r => energy n h W hb (upd1 vb q0 r) v) (vb q0) (- v q0).
Proof.
  intros Hq.
  apply (lim_val _ _ (- (Sum (fun j => logistic (act n W hb v j) * 0) h + v q0))).
  - rewrite sumR_zero; [ring|]. intros; ring.
  - apply (lim_energy n h (fun _ => W) (fun _ => hb) (fun r => upd1 vb q0 r) v); [|now apply lim_upd1]. intros; apply lim_const.
Qed.
End D.

Lemma lim_mean b (f : nat -> R -> R) (d : nat -> R) x : (forall y, (y < b)%nat -> derivable_pt_lim (f y) x (d y)) ->
  derivable_pt_lim (fun r => mean b (fun y => f y r)) x (mean b d).
Proof.
  intros H. unfold mean, Rdiv. apply (lim_val _ _ (/ INR b * Sum d b)); [ring|].
  apply (lim_ext (mult_real_fct (/ INR b) (fun r => Sum (fun y => f y r) b))); [intros r; unfold mult_real_fct; ring|].
  apply derivable_pt_lim_scal. now apply lim_sum.
Qed.
