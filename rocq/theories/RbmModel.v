(** Model of the energy and the costs of app/rocnnet/src/models/rbm.cpp:106-176, 236-265.
    Samples of the chain are arguments (binomial_sample is random); a node is an expression of
    GradModel.v, and its mean the value of reduce_mean for it. *)
From Verif Require Import Common ShapeModel TransformModel MatmulModel ElemModel GradModel CseModel LeafModel MlpModel.

Section Rbm.
Context {T : Type} (N : num T) (fresh : nat -> T) (strassen_on : bool) (of_nat : nat -> T) (same : @expr T -> @expr T -> bool).
Notation zero := (n_zero N).
Notation one := (n_one N).

(** rbm.cpp:236-244 *)
Definition rbm_free_energy (m : rbm) (sample : @expr T) : res (@expr T) :=
  w <- ptr_of (r_w m) ;; hb <- ptr_of (r_hb m) ;; vb <- ptr_of (r_vb m) ;;
  let vbias_term := mk_mat sample (EVar vb) false true in
  let weighed := mk_mat sample (EVar w) false false in
  wx_b <- mk_axb N 1 weighed (EVar hb) ;;
  e <- mk_unary N UExp wx_b ;; e1 <- mk_unary N (UAddL one) e ;; l <- mk_unary N ULog e1 ;;
  let hidden_term := ESumAx 0 l in
  s <- mk_binary N same BAdd hidden_term vbias_term ;;
  mk_unary N UNeg s.

(** transform.ipp:331-352 reduce_mean without axis: the sum divided by the node that holds the
    number of elements *)
Definition mean_value (env : nat -> tens T) (e : @expr T) : res (tens T) :=
  t <- eval N fresh strassen_on env e ;;
  s <- sem N fresh strassen_on of_nat (KSum None) [t] ;;
  z <- sem N fresh strassen_on of_nat (KSize None) [t] ;;
  sem N fresh strassen_on of_nat (KBin BDiv) [s; z].

(** rbm.cpp:140-141: the cost whose gradients train follows *)
Definition rbm_cost_value (m : rbm) (env : nat -> tens T) (input chain_end : @expr T) : res (tens T) :=
  f1 <- rbm_free_energy m input ;; f2 <- rbm_free_energy m chain_end ;;
  m1 <- mean_value env f1 ;; m2 <- mean_value env f2 ;;
  sem N fresh strassen_on of_nat (KBin BSub) [m1; m2].

(** rbm.cpp:246-258; [in_shape] is the shape of the input when the cost is built *)
Definition rbm_pseudo_cost_value (m : rbm) (env : nat -> tens T) (input : @expr T) (in_shape : shape) : res (tens T) :=
  one_i <- const_axis_data zero 0 0 one in_shape ;;
  xi <- mk_unary N URound input ;;
  xi_flip <- mk_binary N same BSub (EConst (in_shape, one_i)) xi ;;
  fe_xi <- rbm_free_energy m xi ;;
  fe_xi_flip <- rbm_free_energy m xi_flip ;;
  d <- mk_binary N same BSub fe_xi_flip fe_xi ;;
  s <- mk_sigmoid N d ;; l <- mk_unary N ULog s ;;
  c <- mk_unary N (UMulL (of_nat (r_nin m))) l ;;
  mean_value env c.

(** rbm.cpp:260-265 *)
Definition rbm_reconstruction_cost_value (env : nat -> tens T) (input visible_dist : @expr T) : res (tens T) :=
  lv <- mk_unary N ULog visible_dist ;;
  p_success <- mk_binary N same BMul input lv ;;
  ni <- mk_unary N (USubL one) input ;;
  nv <- mk_unary N (USubL one) visible_dist ;; lnv <- mk_unary N ULog nv ;;
  p_not <- mk_binary N same BMul ni lnv ;;
  s <- mk_binary N same BAdd p_success p_not ;;
  mean_value env (ESumAx 0 s).
End Rbm.
