(** Values of the gradients of the rbm's cost. *)
From Coq Require Import String Reals Lra Lia.
From Verif Require Import Common CseModel CseSpec ShapeModel ShapeSpec ShapeProofs TransformSpec TransformModel TransformProofs TransformLaws FitModel FitProofs MatmulSpec MatmulModel MatmulProofs Matmul2Proofs MatmulLaws ElemSpec ElemModel ElemProofs NumSpec RealNum ElemLaws GradModel GradSpec GradProofs MatrixSpec MatrixProofs LeafModel LeafProofs LeafLaws MlpSpec MlpModel MlpProofs MlpLaws MeanLaws RbmSpec RbmModel RbmLaws GroupModel GroupProofs RbmTrainModel RbmCalc RbmTrainProofs.
From Verif Require NetProofs NetLaws CrossCorrProofs.
Local Open Scope list_scope.

Section Values.
Context (fresh : nat -> R) (use : bool) (gsame : @gexpr R -> @gexpr R -> bool).
Context (gs : forall a b, gsame a b = true -> a = b).
Context (w hb vb : nat) (Nwh : w <> hb) (Nwv : w <> vb) (Nhv : hb <> vb) (n h : nat).
Notation gev := (geval Rnum fresh use INR).
Notation ev := (eval Rnum fresh use).
Notation nMM := (nMM w). Notation nA := (nA w hb). Notation nE := (nE w hb). Notation nP := (nP w hb). Notation nL := (nL w hb). Notation nV := (nV vb).
Notation nS := (nS w hb vb). Notation nM := (nM w hb vb). Notation nD := (nD gsame w hb vb). Notation nR := (nR gsame w hb vb). Notation nRV := (nRV gsame w hb vb).
Notation Wf env := (entry 0%R h (env w)).
Notation Hf env := (fun j => nth j (snd (env hb)) 0%R).
Notation Vf env := (fun q => nth q (snd (env vb)) 0%R).

Section Env.
Context (env : nat -> tens R) (Mw : matrix h n (env w)) (Mh : vector h (env hb)) (Mv : vector n (env vb)).
Context (b : nat) (e : @expr R) (t : tens R) (He : ev env e = Ok t) (Ht : matrix n b t).
Notation A := (fun j y => act n (Wf env) (Hf env) (fun q => entry 0%R n t q y) j).

Lemma val_A : exists u, gev env (inj (nA e)) = Ok u /\ matrix h b u /\ forall x y, x < h -> y < b -> entry 0%R h u x y = A x y.
Proof.
  assert (E0 : gev env (inj e) = Ok t) by now rewrite geval_inj.
  destruct (g_mat fresh use env false false (inj e) (GVar w) h b n t (env w) (conj E0 Ht) (conj eq_refl Mw)) as (u & [U1 U2] & _ & U3).
  destruct (mat_bias Rnum fresh h b (n_add Rnum) u (env hb) U2 Mh) as (v & V1 & _ & V2 & V3). exists v. split; [|split; [exact V2|]].
  - change (inj (nA e)) with (GAx BAdd false 1 (GMat false false (inj e) (GVar w)) (GVar hb)). cbn [geval] in U1 |- *. rewrite U1. cbn [bind]. exact V1.
  - intros x y Hx Hy. change 0%R with (n_zero Rnum) at 1. rewrite V3 by auto. change (n_zero Rnum) with 0%R. rewrite U3 by auto. reflexivity.
Qed.
Lemma val_EP : exists u v, (gev env (inj (nE e)) = Ok u /\ matrix h b u /\ forall x y, x < h -> y < b -> entry 0%R h u x y = exp (A x y)) /\
  (gev env (inj (nP e)) = Ok v /\ matrix h b v /\ forall x y, x < h -> y < b -> entry 0%R h v x y = (1 + exp (A x y))%R).
Proof.
  destruct val_A as (a & A1 & A2 & A3). destruct (g_un fresh use env UExp _ h b a (conj A1 A2)) as (u & [U1 U2] & U3).
  destruct (g_un fresh use env (UAddL 1%R) _ h b u (conj U1 U2)) as (v & [V1 V2] & V3). exists u, v. split; split; auto; split; auto.
  - intros x y Hx Hy. rewrite U3, A3 by auto. reflexivity.
  - intros x y Hx Hy. rewrite V3, U3, A3 by auto. reflexivity.
Qed.
Lemma val_H : exists u, gev env (inj (xH w hb e)) = Ok u /\ matrix h b u /\ forall x y, x < h -> y < b -> entry 0%R h u x y = logistic (A x y).
Proof.
  destruct val_EP as (u & v & (U1 & U2 & U3) & (V1 & V2 & V3)). destruct (g_bin fresh use env BDiv _ _ h b u v (conj U1 U2) (conj V1 V2)) as (z & [Z1 Z2] & Z3).
  exists z. split; [exact Z1|]. split; [exact Z2|]. intros x y Hx Hy. rewrite Z3, U3, V3 by auto. apply logistic_exp.
Qed.
Lemma val_W : exists u, gev env (inj (xW w hb e)) = Ok u /\ matrix h b u /\ forall x y, x < h -> y < b -> entry 0%R h u x y = logistic (A x y).
Proof.
  destruct val_EP as (u & v & (U1 & U2 & U3) & (V1 & V2 & V3)).
  assert (E0 : gev env (inj e) = Ok t) by now rewrite geval_inj.
  destruct (g_mat fresh use env false false (inj e) (GVar w) h b n t (env w) (conj E0 Ht) (conj eq_refl Mw)) as (m & [M1 M2] & _).
  destruct (g_ones fresh use env _ h b m (conj M1 M2)) as (o & [O1 O2] & O3).
  destruct (g_bin fresh use env BMul _ _ h b o u (conj O1 O2) (conj U1 U2)) as (y1 & [Y1 Y2] & Y3).
  destruct (g_bin fresh use env BDiv _ _ h b y1 v (conj Y1 Y2) (conj V1 V2)) as (z & [Z1 Z2] & Z3).
  exists z. split; [exact Z1|]. split; [exact Z2|]. intros x y Hx Hy. rewrite Z3, Y3, O3, U3, V3 by auto. cbn [bmeaning n_mul n_div Rnum]. rewrite Rmult_1_l. apply logistic_exp.
Qed.

Lemma val_S : gev env (nS e) = Ok ([1], [INR b]).
Proof.
  destruct (fe_value fresh use env w hb vb n h b e t Mw Mh Mv He Ht) as (u & U1 & U2 & _). apply (g_size fresh use env _ u b); [now rewrite geval_inj|now apply samples_n].
Qed.
Lemma pow2 x : Rpow x 2 = (x * x)%R.
Proof. change 2%R with (IZR 2). rewrite Rpow_IZR. change (powerRZ x 2) with (x * (x * 1))%R. ring. Qed.
Lemma val_D : gev env (nD e) = Ok ([1], [(INR b * INR b)%R]).
Proof.
  unfold RbmTrainProofs.nD. pose proof val_S as E. destruct (gsame (nS e) (nS e)); cbn [geval]; rewrite E; cbn [bind]; cbn [sem].
  - rewrite unary_ok by (split; reflexivity). cbn [fst snd map fwd_lambda]. change (n_pow Rnum) with Rpow. rewrite pow2. reflexivity.
  - destruct (binary_ok fresh (bop_lambda Rnum BMul) ([1], [INR b]) ([1], [INR b])) as [H _]; [split; reflexivity|split; reflexivity|]. rewrite H by (now left). reflexivity.
Qed.
Lemma Hb0 : INR b <> 0%R.
Proof. apply not_0_INR. destruct Ht as (_ & Hb & _). lia. Qed.
Lemma val_R X u : gev env X = Ok u -> matrix h b u ->
  exists r, gev env (nR X e) = Ok r /\ matrix h b r /\ forall x y, x < h -> y < b -> entry 0%R h r x y = (- entry 0%R h u x y / INR b)%R.
Proof.
  intros X1 X2. destruct (g_grp fresh use env 0 _ h b u (conj X1 X2)) as (u1 & [G1 G2] & G3). destruct (g_un fresh use env UNeg _ h b u1 (conj G1 G2)) as (u2 & [N1 N2] & N3).
  destruct (g_axscal fresh use env BMul 0 _ _ h b u2 (INR b) (conj N1 N2) val_S) as (u3 & [S1 S2] & S3).
  destruct (g_scal fresh use env BDiv _ _ h b u3 _ _ (conj S1 S2) val_D) as (u4 & [D1 D2] & D3); [split; reflexivity|reflexivity|].
  exists u4. split; [exact D1|]. split; [exact D2|]. intros x y Hx Hy. rewrite D3, S3, N3, G3 by auto. cbn [meaning bmeaning n_mul n_div n_neg Rnum]. field. apply Hb0.
Qed.
Lemma val_RV : exists r, gev env (nRV e) = Ok r /\ matrix 1 b r /\ forall y, y < b -> entry 0%R 1 r 0 y = (- 1 / INR b)%R.
Proof.
  assert (E0 : gev env (inj e) = Ok t) by now rewrite geval_inj.
  destruct (vec_tr fresh use env vb n Mv) as (v & V1 & V2 & _).
  assert (E1 : gev env (GTr (GVar vb)) = Ok v) by exact V1.
  destruct (g_mat fresh use env false true (inj e) (GTr (GVar vb)) 1 b n t v (conj E0 Ht) (conj E1 V2)) as (m & [M1 M2] & _).
  destruct (g_ones fresh use env _ 1 b m (conj M1 M2)) as (o & [O1 O2] & O3). destruct (g_un fresh use env UNeg _ 1 b o (conj O1 O2)) as (u2 & [N1 N2] & N3).
  destruct (g_scal fresh use env BMul _ _ 1 b u2 _ _ (conj N1 N2) val_S) as (u3 & [S1 S2] & S3); [split; reflexivity|reflexivity|].
  destruct (g_scal fresh use env BDiv _ _ 1 b u3 _ _ (conj S1 S2) val_D) as (u4 & [D1 D2] & D3); [split; reflexivity|reflexivity|].
  exists u4. split; [exact D1|]. split; [exact D2|]. intros y Hy. rewrite D3, S3, N3, O3 by (auto; lia). cbn [meaning bmeaning n_mul n_div n_neg Rnum]. field. apply Hb0.
Qed.

(** a product with the visible biases as second factor *)
Lemma g_matv tA tB X u : gev env X = Ok u -> matrix 1 b u -> exists v, gev env (GMat tA tB X (GVar vb)) = Ok v.
Proof.
  intros E M. pose proof (matrix_def _ _ _ M) as Fd. pose proof (matrix_n _ _ _ M) as Nn. pose proof M as (_ & Hb & Lu & Su). pose proof Mv as (Hn & Sv & Lv). 
  assert (Es : matmul_shaper (fst u) (fst (env vb)) = Ok [n; b]).
  { rewrite Sv. destruct Su as [-> |[S1 ->]]; [reflexivity|]. assert (b = 1) as -> by lia. reflexivity. }
  destruct (matmul_general 0%R Rplus Rminus Rmult (fun blk i => fresh (blk + i)) use STRASSEN_THRESHOLD (fst u) (fst (env vb)) [n; b] (map fresh (seq 0 (n_elems [n; b]))) (snd u) (snd (env vb))) as (d & k & E1 & E2 & E3).
  - unfold STRASSEN_THRESHOLD. lia.
  - intros Hu. destruct (R_ring' use Hu) as [opp Rth]. intros c' a' b' X' Y Z P m. eapply strassen_one_ok; eauto.
  - exact Fd.
  - rewrite Sv. cbn. destruct n; [lia|reflexivity].
  - exact Es.
  - rewrite Sv. destruct Su as [-> |[S1 ->]]; reflexivity.
  - now rewrite Nn.
  - rewrite Sv, Lv. cbn. lia.
  - now rewrite map_length, seq_length.
  - exists ([n; b], d). cbn [geval]. rewrite E. cbn [bind]. cbn [sem]. apply forward_fresh.
    + cbn. exact Es.
    + cbn. destruct n; [lia|]. destruct b; [lia|]. reflexivity.
    + cbn [map]. unfold mat_forward. cbn [rd nth_error bind]. unfold shape in *. change (n_zero Rnum) with 0%R. change (n_add Rnum) with Rplus. change (n_sub Rnum) with Rminus. change (n_mul Rnum) with Rmult. rewrite E1. reflexivity.
Qed.

Lemma val_M : gev env (nM e) = Ok ([1], [mean b (fun y => energy n h (Wf env) (Hf env) (Vf env) (fun q => entry 0%R n t q y))]).
Proof.
  destruct (fe_value fresh use env w hb vb n h b e t Mw Mh Mv He Ht) as (u & U1 & U2 & U3).
  pose proof (mean_ok fresh use env _ u b U1 U2) as E. unfold mean_value in E. rewrite U1 in E. cbn [bind] in E.
  unfold RbmTrainProofs.nM, RbmTrainProofs.nS. cbn [geval]. rewrite geval_inj, U1. cbn [bind].
  destruct (sem Rnum fresh use INR (KSum None) [u]) as [s1| | |]; [|discriminate..]. cbn [bind] in E |- *.
  destruct (sem Rnum fresh use INR (KSize None) [u]) as [s2| | |]; [|discriminate..]. cbn [bind] in E |- *. rewrite E. do 3 f_equal. apply mean_ext. exact U3.
Qed.

(** ---- derivatives ---- *)
Context (Tt : exists t', ev env (mk_tr e) = Ok t' /\ matrix b n t' /\ forall x y, x < b -> y < n -> entry 0%R b t' x y = entry 0%R n t y x).
Notation der v := (gderive Rnum fresh use INR gsame env v).
Lemma grad_W : has_leaf w e = false -> exists Y y, der w (nM e) = Ok Y /\ Y = GMat true false (inj (mk_tr e)) (nR (inj (xW w hb e)) e) /\ gev env Y = Ok y /\ matrix h n y /\
  forall x q, x < h -> q < n -> entry 0%R h y x q = mean b (fun k => - (entry 0%R n t q k * logistic (A x k)))%R.
Proof.
  intros Hw. destruct Tt as (t' & T1 & T2 & T3). destruct val_W as (u & U1 & U2 & U3). destruct (val_R _ u U1 U2) as (r & R1 & R2 & R3).
  destruct (g_trn fresh use env (GVar w) h n (env w) (conj eq_refl Mw)) as (wt & [W1 W2] & _).
  destruct (g_mat fresh use env false true _ _ n b h r wt (conj R1 R2) (conj W1 W2)) as (a & [A1 _] & _).
  assert (E1 : gev env (inj (mk_tr e)) = Ok t') by now rewrite geval_inj.
  destruct (g_mat fresh use env true false _ _ h n b t' r (conj E1 T2) (conj R1 R2)) as (g & [G1 G2] & _ & G3).
  eexists _, g. split; [|split; [reflexivity|split; [exact G1|split; [exact G2|]]]].
  - eapply der_W; eauto.
  - intros x q Hx Hq. rewrite G3 by auto. unfold mean, Rdiv. rewrite <- NetProofs.sumR_scal_r. apply sumn_ext. intros k Hk. rewrite T3, R3, U3 by auto. field. apply Hb0.
Qed.
Lemma grad_H : has_leaf hb e = false -> exists Y y, der hb (nM e) = Ok Y /\ Y = GSum (Some 1) (nR (inj (xH w hb e)) e) /\ gev env Y = Ok y /\ vector h y /\
  forall x, x < h -> nth x (snd y) 0%R = mean b (fun k => - logistic (A x k))%R.
Proof.
  intros Hh. destruct val_H as (u & U1 & U2 & U3). destruct (val_R _ u U1 U2) as (r & R1 & R2 & R3).
  destruct (g_sum1 fresh use env _ h b r (conj R1 R2)) as (g & G1 & G2 & G3).
  eexists _, g. split; [|split; [reflexivity|split; [exact G1|split; [exact G2|]]]].
  - now apply der_H.
  - intros x Hx. rewrite G3 by auto. unfold mean, Rdiv. rewrite <- NetProofs.sumR_scal_r. apply sumn_ext. intros k Hk. rewrite R3, U3 by auto. field. apply Hb0.
Qed.
Lemma grad_V : has_leaf vb e = false -> exists Y y, der vb (nM e) = Ok Y /\ Y = GBin BMul (GTr (GMat true false (inj (mk_tr e)) (nRV e))) (GTr (GConst (ElemModel.const_scalar 1%R))) /\ gev env Y = Ok y /\ matrix n 1 y /\
  forall q, q < n -> entry 0%R n y q 0 = mean b (fun k => - entry 0%R n t q k)%R.
Proof.
  intros Hv. destruct Tt as (t' & T1 & T2 & T3). destruct val_RV as (r & R1 & R2 & R3).
  destruct (g_matv false true _ r R1 R2) as (a & A1).
  assert (E1 : gev env (inj (mk_tr e)) = Ok t') by now rewrite geval_inj.
  destruct (g_mat fresh use env true false _ _ 1 n b t' r (conj E1 T2) (conj R1 R2)) as (g & [G1 G2] & _ & G3).
  destruct (g_trn fresh use env _ 1 n g (conj G1 G2)) as (g' & [G1' G2'] & G3').
  assert (O : gev env (GTr (GConst (ElemModel.const_scalar 1%R))) = Ok ([1; 1], [1%R])) by reflexivity.
  destruct (g_scal fresh use env BMul _ _ n 1 g' [1; 1] 1%R (conj G1' G2') O) as (z & [Z1 Z2] & Z3); [split; reflexivity|reflexivity|].
  eexists _, z. split; [|split; [reflexivity|split; [exact Z1|split; [exact Z2|]]]].
  - eapply der_V; eauto.
  - intros q Hq. rewrite Z3, G3', G3 by (auto; lia). cbn [bmeaning n_mul Rnum]. rewrite Rmult_1_r. unfold mean, Rdiv. rewrite <- NetProofs.sumR_scal_r. apply sumn_ext. intros k Hk. rewrite T3, R3 by auto. field. apply Hb0.
Qed.
End Env.
End Values.
