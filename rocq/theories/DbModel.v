(** Model of the training of deep belief networks, app/rocnnet/src/models/db_net.cpp:84-127. *)
From Verif Require Import Common ShapeModel TransformModel MatmulModel ElemModel GradModel CseModel GroupModel LeafModel MlpModel RbmModel RbmTrainModel SampleModel RbmChainModel.

Section Db.
Context {T : Type} (N : num T) (fresh : nat -> T) (strassen_on : bool) (of_nat : nat -> T) (draw : nat -> nat -> T -> T -> T).
Context (same : @gexpr T -> @gexpr T -> bool).
Notation same' := (fun a b => same (inj a) (inj b)).

(** db_net.cpp:84-98 pretraining_functions: for every rbm the nodes that its training function
    subtracts, built for the hidden distribution of the rbms below. [k] is the next free leaf:
    train without a persistent variable makes one sample, two in each round and chain_end. *)
Fixpoint pretrain_from (rs : list rbm) (env : nat -> tens T) (k : nat) (learning_rate : T) (input_node : @expr T) (n_cont_div : nat) :
  res ((nat -> tens T) * list (list (nat * @gexpr T))) :=
  match rs with
  | [] => Ok (env, [])
  | h :: rest =>
    x <- rbm_train N fresh strassen_on of_nat draw same h env k learning_rate input_node None n_cont_div ;;
    input' <- rbm_prop_up N h input_node ;;
    y <- pretrain_from rest (fst x) (k + 2 * n_cont_div + 2) learning_rate input' n_cont_div ;;
    Ok (fst y, snd x :: snd y)
  end.
Definition db_pretrain (d : db_net) (env : nat -> tens T) (k : nat) (input : nat) (learning_rate : T) (n_cont_div : nat) :=
  pretrain_from (d_layers d) env k learning_rate (EVar input) n_cont_div.

(** db_net.cpp:105-107: finetune_cost *)
Definition db_cost (out_dist : @expr T) : res (@gexpr T) :=
  l <- mk_unary N ULog out_dist ;; m <- gmean N same None (inj l) ;; gunary N UNeg m.
(** db_net.cpp:110-111: the reported error *)
Definition db_error (out_dist : @expr T) (train_out : nat) : res (@gexpr T) :=
  temp_diff <- mk_binary N same' BSub out_dist (EVar train_out) ;;
  sq <- mk_unary N (UPow (n_two N)) temp_diff ;; gmean N same None (inj sq).
(** db_net.cpp:113-118: one updater for every variable *)
Fixpoint finetune_from (vars : list (option nat)) (env : nat -> tens T) (learning_rate : T) (cost : @gexpr T) : res (list (nat * @gexpr T)) :=
  match vars with
  | [] => Ok []
  | p :: rest =>
    gp <- ptr_of p ;;
    g <- gderive N fresh strassen_on of_nat same env gp cost ;;
    u <- gunary N (UMulL learning_rate) g ;;
    us <- finetune_from rest env learning_rate cost ;; Ok ((gp, u) :: us)
  end.
(** db_net.cpp:100-127 build_finetune_functions: cost, what is subtracted from each variable,
    error *)
Definition db_finetune (d : db_net) (env : nat -> tens T) (train_in train_out : nat) (learning_rate : T) :
  res (@gexpr T * list (nat * @gexpr T) * @gexpr T) :=
  out_dist <- db_prop_up N same' d (EVar train_in) (fst (env train_in)) ;;
  cost <- db_cost out_dist ;;
  error <- db_error out_dist train_out ;;
  vars <- db_variables d ;;
  us <- finetune_from vars env learning_rate cost ;;
  Ok (cost, us, error).
End Db.
