(** C60: prop_up and prop_down are the conditional probabilities of the model. *)
From Coq Require Import String Reals Lra Lia.
From Verif Require Import Common CseModel CseSpec ShapeModel MatmulSpec ElemModel RealNum GradModel MatrixSpec MatrixProofs MlpModel MlpLaws RbmSpec RbmLaws RbmCalc.
From Verif Require NetProofs.
Local Open Scope list_scope.

Lemma Prod_S f n : Prod f (S n) = (Prod f n * f n)%R.
Proof.
  unfold Prod. rewrite seq_S, map_app. cbn [map Nat.add]. generalize (map f (seq 0 n)) as l. induction l as [|x l IH]; cbn [app fold_right]; [ring|]. rewrite IH. ring.
Qed.
Lemma Prod_ext f g n : (forall i, i < n -> f i = g i) -> Prod f n = Prod g n.
Proof. intros H. induction n as [|n IH]; [reflexivity|]. rewrite !Prod_S, IH, H by auto. reflexivity. Qed.
Lemma Prod_exp f n : Prod (fun i => exp (f i)) n = exp (Sum f n).
Proof. induction n as [|n IH]; [unfold Prod; cbn; now rewrite exp_0|]. rewrite Prod_S, IH. cbn [sumn]. now rewrite exp_plus. Qed.
Lemma Prod_mult f g n : Prod (fun i => f i * g i)%R n = (Prod f n * Prod g n)%R.
Proof. induction n as [|n IH]; [unfold Prod; cbn; ring|]. rewrite !Prod_S, IH. ring. Qed.
Lemma Prod_pos f n : (forall i, i < n -> (0 < f i)%R) -> (0 < Prod f n)%R.
Proof. intros H. induction n as [|n IH]; [unfold Prod; cbn; lra|]. rewrite Prod_S. apply Rmult_lt_0_compat; auto. Qed.
Lemma Prod_one f j n : j < n -> (forall i, i < n -> i <> j -> f i = 1%R) -> Prod f n = f j.
Proof.
  intros Hj H. induction n as [|n IH]; [lia|]. rewrite Prod_S. destruct (Nat.eq_dec j n) as [->|Hn].
  - rewrite (Prod_ext f (fun _ => 1%R)) by (intros; apply H; lia). assert (Z : Prod (fun _ => 1%R) n = 1%R) by (clear; induction n as [|n IH]; [reflexivity|rewrite Prod_S, IH; ring]). rewrite Z. ring.
  - rewrite IH by (try lia; intros; apply H; lia). rewrite (H n) by lia. ring.
Qed.
Notation LSum l := (fold_right Rplus 0%R l).
Lemma configs_prod (f : nat -> R -> R) h : LSum (map (fun c => Prod (fun i => f i (c i)) h) (configs h)) = Prod (fun i => f i 0 + f i 1)%R h.
Proof.
  induction h as [|h IH]; [unfold Prod; cbn; lra|]. rewrite Prod_S, <- IH. clear IH. cbn [configs].
  pose proof (configs_zero h) as Z. induction (configs h) as [|c l IHl]; [cbn; lra|]. cbn [flat_map app map fold_right].
  rewrite IHl by (intros c' Hc'; apply Z; now right). rewrite !Prod_S, Nat.eqb_refl. rewrite (Z c (or_introl eq_refl) h) by lia.
  rewrite (Prod_ext (fun i => f i (if i =? h then 1%R else c i)) (fun i => f i (c i))) by (intros i Hi; rewrite (proj2 (Nat.eqb_neq i h)) by lia; reflexivity). ring.
Qed.
Lemma configs_bin h c : In c (configs h) -> forall i, c i = 0%R \/ c i = 1%R.
Proof.
  revert c. induction h as [|h IH]; intros c Hc i; cbn [configs] in Hc; [destruct Hc as [<-|[]]; now left|].
  apply in_flat_map in Hc. destruct Hc as (c' & Hc' & [<-|[<-|[]]]); [now apply IH|]. destruct (i =? h); [now right|now apply IH].
Qed.
Lemma lsum_filter {A} (g : A -> R) ev l : LSum (map g (filter ev l)) = LSum (map (fun c => if ev c then g c else 0%R) l).
Proof. induction l as [|c l IH]; [reflexivity|]. cbn [filter map fold_right]. destruct (ev c); cbn [map fold_right]; rewrite IH; lra. Qed.
Lemma lsum_scal {A} (g : A -> R) k l : LSum (map (fun c => k * g c)%R l) = (k * LSum (map g l))%R.
Proof. induction l as [|c l IH]; cbn [map fold_right]; [ring|]. rewrite IH. ring. Qed.
Lemma lsum_ext {A} (f g : A -> R) l : (forall c, In c l -> f c = g c) -> LSum (map f l) = LSum (map g l).
Proof. intros H. now rewrite (map_ext_in f g l H). Qed.

(** units with independent inputs a *)
Lemma on_prob (a : nat -> R) k (wt : (nat -> R) -> R) h j : j < h -> (forall c, wt c = exp k * exp (Sum (fun i => a i * c i)%R h))%R ->
  prob (configs h) wt (is_on j) = logistic (a j).
Proof.
  intros Hj Hw. unfold prob. rewrite lsum_filter.
  rewrite (lsum_ext wt (fun c => exp k * exp (Sum (fun i => a i * c i)%R h))%R) by auto. rewrite lsum_scal.
  rewrite (lsum_ext (fun c => if is_on j c then wt c else 0%R) (fun c => exp k * Prod (fun i => (exp (a i * c i) * (if i =? j then c i else 1)))%R h)%R).
  - rewrite lsum_scal. rewrite (configs_prod (fun i x => (exp (a i * x) * (if i =? j then x else 1))%R)).
    rewrite (lsum_ext (fun c => exp (Sum (fun i => a i * c i)%R h)) (fun c => Prod (fun i => exp (a i * c i)) h)) by (intros; now rewrite Prod_exp).
    rewrite (configs_prod (fun i x => exp (a i * x))).
    rewrite (Prod_ext _ (fun i => ((exp (a i * 0) + exp (a i * 1)) * (if (i =? j)%nat then logistic (a j) else 1)))%R).
    + rewrite Prod_mult. rewrite (Prod_one (fun i => if i =? j then logistic (a j) else 1%R) j h Hj) by (intros i _ Hi; now rewrite (proj2 (Nat.eqb_neq i j))). rewrite Nat.eqb_refl.
      pose proof (exp_pos k). assert (0 < Prod (fun i => exp (a i * 0) + exp (a i * 1))%R h)%R by (apply Prod_pos; intros; apply Rplus_lt_0_compat; apply exp_pos). field. lra.
    + intros i Hi. destruct (Nat.eqb_spec i j) as [->|]; [|ring]. rewrite !Rmult_0_r, !Rmult_1_r, exp_0. rewrite <- logistic_exp. pose proof (exp_pos (a j)). field. lra.
  - intros c Hc. rewrite Hw. rewrite Prod_mult, Prod_exp. rewrite (Prod_one (fun i => if i =? j then c i else 1%R) j h Hj) by (intros i _ Hi; now rewrite (proj2 (Nat.eqb_neq i j))). rewrite Nat.eqb_refl.
    unfold is_on. destruct (configs_bin h c Hc j) as [Ec|Ec]; rewrite Ec; destruct (Req_EM_T _ _) as [X|X]; try lra.
Qed.
Lemma factor_prob (a : nat -> R) k (wt : (nat -> R) -> R) h c : In c (configs h) -> (forall c, wt c = exp k * exp (Sum (fun i => a i * c i)%R h))%R ->
  (wt c / LSum (map wt (configs h)) = Prod (fun i => if is_on i c then logistic (a i) else 1 - logistic (a i)) h)%R.
Proof.
  intros Hc Hw. rewrite (lsum_ext wt (fun c => exp k * exp (Sum (fun i => a i * c i)%R h))%R) by auto. rewrite lsum_scal.
  rewrite (lsum_ext (fun c => exp (Sum (fun i => a i * c i)%R h)) (fun c => Prod (fun i => exp (a i * c i)) h)) by (intros; now rewrite Prod_exp).
  rewrite (configs_prod (fun i x => exp (a i * x))). rewrite Hw, <- Prod_exp.
  rewrite (Prod_ext (fun i => exp (a i * c i)) (fun i => ((exp (a i * 0) + exp (a i * 1)) * (if is_on i c then logistic (a i) else 1 - logistic (a i))))%R).
  - rewrite Prod_mult. pose proof (exp_pos k). assert (0 < Prod (fun i => exp (a i * 0) + exp (a i * 1))%R h)%R by (apply Prod_pos; intros; apply Rplus_lt_0_compat; apply exp_pos). field. lra.
  - intros i Hi. rewrite <- logistic_exp, Rmult_0_r, Rmult_1_r, exp_0. pose proof (exp_pos (a i)). unfold is_on.
    destruct (configs_bin h c Hc i) as [Ec|Ec]; rewrite Ec; destruct (Req_EM_T _ _) as [X|X]; try lra; rewrite ?Rmult_0_r, ?Rmult_1_r, ?exp_0; field; lra.
Qed.
Lemma joint_hidden n h W hb vb v c : exp (- joint n h W hb vb v c) = (exp (Sum (fun q => v q * vb q)%R n) * exp (Sum (fun j => act n W hb v j * c j)%R h))%R.
Proof.
  unfold joint, act. rewrite Ropp_involutive, <- exp_plus. f_equal.
  rewrite <- sumn_add. rewrite Rplus_comm. f_equal. apply sumn_ext. intros j _. ring.
Qed.
Lemma joint_visible n h W hb vb v c : exp (- joint n h W hb vb v c) = (exp (Sum (fun j => hb j * c j)%R h) * exp (Sum (fun q => (Sum (fun j => c j * W j q)%R h + vb q) * v q)%R n))%R.
Proof.
  unfold joint. rewrite Ropp_involutive, <- exp_plus. f_equal.
  assert (Sw : Sum (fun j => Sum (fun q => v q * W j q)%R n * c j)%R h = Sum (fun q => Sum (fun j => c j * W j q)%R h * v q)%R n).
  { transitivity (Sum (fun j => Sum (fun q => v q * W j q * c j)%R n) h); [apply sumn_ext; intros j _; symmetry; apply (NetProofs.sumR_scal_r (c j) (fun q => (v q * W j q)%R))|].
    rewrite (NetProofs.sumR_swap (fun j q => (v q * W j q * c j)%R) h n). apply sumn_ext. intros q _. rewrite <- (NetProofs.sumR_scal_r (v q) (fun j => (c j * W j q)%R)). apply sumn_ext. intros j _. ring. }
  rewrite Sw. rewrite (sumn_ext 0%R Rplus (fun q => ((Sum (fun j => c j * W j q)%R h + vb q) * v q)%R) (fun q => (Sum (fun j => c j * W j q)%R h * v q + v q * vb q)%R)) by (intros; ring).
  rewrite sumn_add. ring.
Qed.

(** The units of one layer given the other are independent: the probability of a configuration
    of hidden units given visible units v, with probability proportional to exp (- joint energy),
    is the product over the units of the probability of being on (off); likewise for the visible units. *)
Lemma C60_independent_units_lemma :
  forall (n h : nat) (W : nat -> nat -> R) (hb vb : nat -> R),
    (forall v c, In c (configs h) ->
      let weight c := exp (- joint n h W hb vb v c) in
      (weight c / fold_right Rplus 0 (map weight (configs h)) =
       Prod (fun j => let p := prob (configs h) weight (is_on j) in if is_on j c then p else 1 - p) h)%R) /\
    (forall v c, In v (configs n) ->
      let weight v := exp (- joint n h W hb vb v c) in
      (weight v / fold_right Rplus 0 (map weight (configs n)) =
       Prod (fun q => let p := prob (configs n) weight (is_on q) in if is_on q v then p else 1 - p) n)%R).
Proof.
  intros n h W hb vb. split; intros v c Hin weight; cbv zeta.
  - rewrite (factor_prob (act n W hb v) (Sum (fun q => v q * vb q)%R n) weight h c Hin) by (intros; apply joint_hidden).
    apply Prod_ext. intros j Hj. now rewrite (on_prob (act n W hb v) (Sum (fun q => v q * vb q)%R n) weight h j Hj) by (intros; apply joint_hidden).
  - rewrite (factor_prob (fun q => Sum (fun j => c j * W j q)%R h + vb q)%R (Sum (fun j => hb j * c j)%R h) weight n v Hin) by (intros; apply joint_visible).
    apply Prod_ext. intros q Hq. now rewrite (on_prob (fun q => Sum (fun j => c j * W j q)%R h + vb q)%R (Sum (fun j => hb j * c j)%R h) weight n q Hq) by (intros; apply joint_visible).
Qed.

(** prop_up returns, for every sample of the batch, the probabilities of the hidden units being
    1 given the visible units of the sample; prop_down those of the visible units given the
    hidden ones. *)
Lemma C60_conditional_probability_lemma :
  forall (of_nat : nat -> R) fresh use (env : nat -> tens R) (n h b : nat) scope st m st',
    0 < n -> 0 < h -> 0 < b ->
    rbm_new Rnum of_nat n h scope st = (m, st') ->
    exists w hb vb, rbm_variables m = [Some w; Some hb; Some vb] /\
    (initialized env st' w -> initialized env st' hb -> initialized env st' vb ->
      let jointly := joint n h (entry 0%R h (env w)) (fun j => nth j (snd (env hb)) 0%R) (fun q => nth q (snd (env vb)) 0%R) in
      (forall e t, eval Rnum fresh use env e = Ok t -> matrix n b t ->
         exists e' t', rbm_prop_up Rnum m e = Ok e' /\ eval Rnum fresh use env e' = Ok t' /\ matrix h b t' /\
           forall j y, j < h -> y < b -> entry 0%R h t' j y = prob (configs h) (fun c => exp (- jointly (fun q => entry 0%R n t q y) c)) (is_on j)) /\
      (forall e t, eval Rnum fresh use env e = Ok t -> matrix h b t ->
         exists e' t', rbm_prop_down Rnum m e = Ok e' /\ eval Rnum fresh use env e' = Ok t' /\ matrix n b t' /\
           forall q y, q < n -> y < b -> entry 0%R n t' q y = prob (configs n) (fun v => exp (- jointly v (fun j => entry 0%R h t j y))) (is_on q))).
Proof.
  intros of_nat fresh use env n h b scope st m st' Hn Hh Hb E.
  destruct (C44_rbm_value_lemma of_nat fresh use env n h b scope st m st' Hn Hh Hb E) as (w & hb & vb & Em & K). exists w, hb, vb. split; [exact Em|]. intros I1 I2 I3 jointly.
  destruct (K I1 I2 I3) as [K1 K2]. split.
  - intros e t He Ht. destruct (K1 e t He Ht) as (e' & t' & X1 & X2 & X3 & X4). exists e', t'. split; [exact X1|]. split; [exact X2|]. split; [exact X3|]. intros j y Hj Hy. rewrite X4 by auto. symmetry.
    eapply (on_prob (act n (entry 0%R h (env w)) (fun j => nth j (snd (env hb)) 0%R) (fun q => entry 0%R n t q y))); [exact Hj|]. intros c. apply joint_hidden.
  - intros e t He Ht. destruct (K2 e t He Ht) as (e' & t' & X1 & X2 & X3 & X4). exists e', t'. split; [exact X1|]. split; [exact X2|]. split; [exact X3|]. intros q y Hq Hy. rewrite X4 by auto. symmetry.
    eapply (on_prob (fun q => Sum (fun j => entry 0 h t j y * entry 0 h (env w) j q)%R h + nth q (snd (env vb)) 0)%R); [exact Hq|]. intros v. apply (joint_visible n h (entry 0%R h (env w)) (fun j => nth j (snd (env hb)) 0%R) (fun q => nth q (snd (env vb)) 0%R) v).
Qed.
