(** The scalar operations of the templates instantiated with the real numbers (rounding and
    overflow of floating point are not modelled). *)
From Coq Require Import Reals ZArith Lra.
From Verif Require Import Common ElemModel.
Local Open Scope R_scope.

(** std::round: to the nearest integer, halves away from zero *)
Definition Rround (x : R) : R := if Rle_dec 0 x then IZR (Int_part (x + / 2)) else - IZR (Int_part (- x + / 2)).

(** std::pow: an integer power for an integral exponent, exp (s ln x) otherwise; the value 0
    for a negative base with a fractional exponent stands for NaN *)
Definition Rpow (x s : R) : R :=
  if Req_EM_T s (IZR (Int_part s)) then powerRZ x (Int_part s)
  else if Rlt_dec 0 x then Rpower x s else 0.

Definition Reqb (x y : R) : bool := if Req_EM_T x y then true else false.
Definition Rltb (x y : R) : bool := if Rlt_dec x y then true else false.

Definition Rnum : num R := {|
  n_zero := 0; n_one := 1; n_two := 2; n_add := Rplus; n_sub := Rminus; n_mul := Rmult; n_div := Rdiv; n_neg := Ropp;
  n_abs := Rabs; n_sin := sin; n_cos := cos; n_tan := tan; n_exp := exp; n_sqrt := sqrt; n_round := Rround; n_log := ln;
  n_pow := Rpow; n_eqb := Reqb; n_ltb := Rltb |}.

Lemma Reqb_iff x y : Reqb x y = true <-> x = y.
Proof. unfold Reqb. destruct (Req_EM_T x y); split; congruence. Qed.
Lemma Rltb_iff x y : Rltb x y = true <-> x < y.
Proof. unfold Rltb. destruct (Rlt_dec x y); split; intros; auto; congruence. Qed.
Lemma Rltb_false x y : Rltb x y = false <-> y <= x.
Proof. unfold Rltb. destruct (Rlt_dec x y); split; intros; try congruence; lra. Qed.

Lemma Int_part_IZR z : Int_part (IZR z) = z.
Proof. unfold Int_part. assert ((z + 1)%Z = up (IZR z)); [|lia]. apply tech_up; rewrite plus_IZR; lra. Qed.

Lemma Rpow_IZR x z : Rpow x (IZR z) = powerRZ x z.
Proof.
  unfold Rpow. rewrite Int_part_IZR. destruct (Req_EM_T (IZR z) (IZR z)); congruence.
Qed.

(** squared Euclidean length of a list *)
Definition norm2 (l : list R) : R := fold_right (fun x acc => x * x + acc) 0 l.

Lemma sumsq_norm2 l : sumsq Rnum l = norm2 l.
Proof.
  unfold sumsq. cbn. assert (G : forall acc, fold_left (fun acc x => acc + x * x) l acc = acc + norm2 l).
  { induction l as [|x l IH]; intros acc; cbn; [lra|]. rewrite IH. unfold norm2. lra. }
  rewrite G. lra.
Qed.
Lemma norm2_nonneg l : 0 <= norm2 l.
Proof. induction l; cbn; [lra|]. pose proof (Rle_0_sqr a). unfold Rsqr in *. unfold norm2 in *. lra. Qed.
Lemma norm2_scale k l : norm2 (map (fun x => x * k) l) = k * k * norm2 l.
Proof. unfold norm2. induction l as [|x l IH]; cbn; [lra|]. rewrite IH. lra. Qed.
