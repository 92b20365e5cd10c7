(** Model of the Gibbs chain that rbm::train builds (app/rocnnet/src/models/rbm.cpp:106-139)
    and of its use in training. A sampled node is a leaf of the expressions of GradModel.v whose
    value is drawn from the current value of the node it samples; the k-th leaf draws with
    [draw k]. Sampling the same node again returns the existing sample (C32). *)
From Verif Require Import Common ShapeModel TransformModel MatmulModel ElemModel GradModel CseModel GroupModel LeafModel MlpModel RbmModel RbmTrainModel SampleModel.

Section Chain.
Context {T : Type} (N : num T) (fresh : nat -> T) (strassen_on : bool) (of_nat : nat -> T) (draw : nat -> nat -> T -> T -> T).
Notation one := (n_one N).

Definition set_leaf (env : nat -> tens T) (k : nat) (t : tens T) : nat -> tens T := fun i => if i =? k then t else env i.

(** binomial_sample(1.0, e) as the new leaf k: the leaves' values with the sample's *)
Definition sample_leaf (env : nat -> tens T) (k : nat) (e : @expr T) : res (nat -> tens T) :=
  match e with
  | EConst t => l <- sample_const (draw k) one t ;; Ok (set_leaf env k (fst t, l))
  | _ => t <- eval N fresh strassen_on env e ;; s <- sample_value N fresh (draw k) one t ;; Ok (set_leaf env k s)
  end.

(** the state of the loop: leaves' values, next leaf, chain_it, and final_visible_dist with its
    sample (nothing before the first round) *)
Record gibbs := mkGibbs { g_env : nat -> tens T; g_next : nat; g_it : @expr T; g_last : option (@expr T * nat) }.

(** rbm.cpp:113-124 *)
Definition gibbs_start (m : rbm) (env : nat -> tens T) (k : nat) (input : @expr T) (persistent : option nat) : res gibbs :=
  match persistent with
  | None =>
    hidden_dist <- rbm_prop_up N m input ;;
    env <- sample_leaf env k hidden_dist ;;
    Ok (mkGibbs env (k + 1) (EVar k) None)
  | Some v => Ok (mkGibbs env k (EVar v) None)
  end.
(** rbm.cpp:126-136 with reconstruct_hidden (rbm.cpp:99-104): presig_vis is the node that
    prop_down has made *)
Definition gibbs_step (m : rbm) (g : gibbs) : res gibbs :=
  visible_dist <- rbm_prop_down N m (g_it g) ;;
  env <- sample_leaf (g_env g) (g_next g) visible_dist ;;
  hidden_dist <- rbm_prop_up N m (EVar (g_next g)) ;;
  env <- sample_leaf env (g_next g + 1) hidden_dist ;;
  Ok (mkGibbs env (g_next g + 2) (EVar (g_next g + 1)) (Some (visible_dist, g_next g))).
Definition gibbs_loop (m : rbm) (n_cont_div : nat) (g : gibbs) : res gibbs := for_ n_cont_div (fun _ => gibbs_step m) g.

(** rbm.cpp:112-139: the leaves' values after the chain, chain_end as a new leaf, chain_it and
    final_visible_dist. Without a round final_visible_dist is a null varptr, so are its sample
    and the cost (each operator returns null for a null argument), and rbm.cpp:144 calls derive
    on null. *)
Definition rbm_chain (m : rbm) (env : nat -> tens T) (k : nat) (input : @expr T) (persistent : option nat) (n_cont_div : nat) :
  res ((nat -> tens T) * nat * @expr T * @expr T) :=
  g <- gibbs_start m env k input persistent ;;
  g <- gibbs_loop m n_cont_div g ;;
  match g_last g with
  | None => UB
  | Some (visible_dist, sample) =>
    t <- as_constant_value fresh (g_env g sample) ;;
    Ok (set_leaf (g_env g) (g_next g) t, g_next g, g_it g, visible_dist)
  end.

(** rbm.cpp:106-163: the leaves' values during training, and what is subtracted from each
    variable *)
Definition rbm_train (same : @gexpr T -> @gexpr T -> bool) (m : rbm) (env : nat -> tens T) (k : nat) (learning_rate : T)
  (input : @expr T) (persistent : option nat) (n_cont_div : nat) : res ((nat -> tens T) * list (nat * @gexpr T)) :=
  r <- rbm_chain m env k input persistent n_cont_div ;;
  let '(env', chain_end, _, _) := r in
  us <- rbm_updates N fresh strassen_on of_nat same m env' learning_rate input (EVar chain_end) ;;
  Ok (env', us).
End Chain.
