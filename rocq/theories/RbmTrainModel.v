(** Model of the gradients that rbm::train follows, app/rocnnet/src/models/rbm.cpp:106-176.
    The end of the chain is an argument: as_constant of a random sample (elementary.ipp:425-437)
    has no leaves. *)
From Verif Require Import Common ShapeModel TransformModel MatmulModel ElemModel GradModel CseModel GroupModel LeafModel MlpModel RbmModel.

Section RbmTrain.
Context {T : Type} (N : num T) (fresh : nat -> T) (strassen_on : bool) (of_nat : nat -> T) (same : @gexpr T -> @gexpr T -> bool).

(** rbm.cpp:140-141: mean energy of the input minus mean energy of the chain's end *)
Definition rbm_cost (m : rbm) (input chain_end : @expr T) : res (@gexpr T) :=
  let same' a b := same (inj a) (inj b) in
  f1 <- rbm_free_energy N same' m input ;; m1 <- gmean N same None (inj f1) ;;
  f2 <- rbm_free_energy N same' m chain_end ;; m2 <- gmean N same None (inj f2) ;;
  gbinary N same BSub m1 m2.

(** rbm.cpp:144-151: the variables and the nodes that are subtracted from them by
    assign_sub(learning_rate * d) *)
Definition rbm_updates (m : rbm) (env : nat -> tens T) (learning_rate : T) (input chain_end : @expr T) : res (list (nat * @gexpr T)) :=
  cost <- rbm_cost m input chain_end ;;
  w <- ptr_of (r_w m) ;; hb <- ptr_of (r_hb m) ;; vb <- ptr_of (r_vb m) ;;
  let der v := gderive N fresh strassen_on of_nat same env v cost in
  dW <- der w ;; dhb <- der hb ;; dvb <- der vb ;;
  uW <- gunary N (UMulL learning_rate) dW ;;
  uhb <- gunary N (UMulL learning_rate) dhb ;;
  uvb <- gunary N (UMulL learning_rate) dvb ;;
  Ok [(w, uW); (hb, uhb); (vb, uvb)].
End RbmTrain.
