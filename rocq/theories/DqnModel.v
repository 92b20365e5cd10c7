(** Model of rocnnet::dq_net (app/rocnnet/src/models/dq_net.cpp,
    app/rocnnet/include/models/dq_net.hpp). doubles are real numbers; the two networks are
    the lists of their variables' values; a call of random_shuffle is an arbitrary argument
    (the order it produced), a call of get_random likewise. What source_updates_ do to the
    source variables is the argument [upd] (gd_utils, UpdaterModel.v). *)
From Coq Require Import Reals.
From Verif Require Import Common ShapeModel ElemModel RealNum.
Local Open Scope R_scope.

(** dq_net.hpp:24-35 dqn_param *)
Record dqn_param := mkP {
  train_interval : nat; rand_action_prob : R; discount_rate : R; target_update_rate : R;
  exploration_period : R; store_interval : nat; mini_batch_size : nat; max_exp : nat }.

(** dq_net.hpp:78-85 exp_batch *)
Record exp_batch := mkE { observation : list R; action_idx : nat; reward : R; new_observation : list R }.

(** what train feeds to train_input_, output_mask_, next_input_, next_output_mask_, reward_
    (dq_net.cpp:138-142) *)
Record batch := mkB {
  b_states : list R; b_action_mask : list R; b_new_states : list R; b_new_mask : list R; b_rewards : list R }.

(** dq_net.hpp:164-178: the counters and experiences_; plus the values of the variables of
    the two networks and the placeholders' contents *)
Record dqn := mkD {
  d_par : dqn_param; d_ninput : nat; d_noutput : nat;
  actions_executed : nat; iteration : nat; n_store_called : nat; n_train_called : nat;
  experiences : list exp_batch;
  source_vars : list (tens R); target_vars : list (tens R);
  fed : option batch }.

(** [a % b] on size_t *)
Definition umod (a b : nat) : res nat := match b with O => UB | _ => Ok (a mod b)%nat end.

(** the constructor, dq_net.cpp:18-29: counters 0, no experience; the target network is a
    clone of the source network *)
Definition dq_new (p : dqn_param) (ninput noutput : nat) (vars : list (tens R)) : dqn :=
  mkD p ninput noutput 0 0 0 0 [] vars vars None.

(** dq_net.cpp:35-39, 223-244 the copy constructor: experiences_ (and the placeholders'
    contents) are not copied; generator_ and explore_ are not modelled *)
Definition dq_copy (other : dqn) : dqn :=
  mkD (d_par other) (d_ninput other) (d_noutput other) (actions_executed other) (iteration other)
      (n_store_called other) (n_train_called other) [] (source_vars other) (target_vars other) None.
(** dq_net.cpp:46-54 operator =; [self]: both are the same object. experiences_ stays what it was. *)
Definition dq_assign (self : bool) (this other : dqn) : dqn :=
  if self then this
  else mkD (d_par other) (d_ninput other) (d_noutput other) (actions_executed other) (iteration other)
           (n_store_called other) (n_train_called other) (experiences this) (source_vars other) (target_vars other) None.

(** dq_net.cpp:87-100 store *)
Definition store (d : dqn) (e : exp_batch) : res dqn :=
  m <- umod (n_store_called d) (store_interval (d_par d)) ;;
  mem <- (if (m =? 0)%nat then
            let mem1 := experiences d ++ [e] in
            if (max_exp (d_par d) <? length mem1)%nat then
              back <- rd mem1 (length mem1 - 1)%nat ;;
              mem2 <- wr mem1 0 back ;;
              Ok (removelast mem2)
            else Ok mem1
          else Ok (experiences d)) ;;
  Ok (mkD (d_par d) (d_ninput d) (d_noutput d) (actions_executed d) (iteration d)
          (S (n_store_called d)) (n_train_called d) mem (source_vars d) (target_vars d) (fed d)).

(** dq_net.cpp:340-352 random_sample; [indices] is what iota and random_shuffle leave *)
Definition random_sample (d : dqn) (indices : list nat) : res (list exp_batch) :=
  for_ (mini_batch_size (d_par d)) (fun i r =>
    idx <- rd indices i ;;
    e <- rd (experiences d) idx ;;
    Ok (r ++ [e])) [].

(** dq_net.cpp:113-136: one iteration of the loop that processes the samples *)
Definition add_sample (ninput noutput : nat) (e : exp_batch) (b : batch) : res batch :=
  mask <- wr (repeat 0 noutput) (action_idx e) 1 ;;
  let term := match new_observation e with [] => true | _ => false end in
  Ok (mkB (b_states b ++ observation e) (b_action_mask b ++ mask)
          (b_new_states b ++ (if term then repeat 0 ninput else new_observation e))
          (b_new_mask b ++ [if term then 0 else 1]) (b_rewards b ++ [reward e])).
Definition make_batch (ninput noutput : nat) (samples : list exp_batch) : res batch :=
  for_ (length samples) (fun i b => e <- rd samples i ;; add_sample ninput noutput e b) (mkB [] [] [] [] []).

Section Target.
Context (fresh : nat -> R).

(** dq_net.cpp:322: the node target_update_rate_ * (tarvar - srcvar), evaluated; the second
    component says whether it is a constant (elementary.ipp:1580-1606 gives constant 0 for
    a rate 0). Both variables are distinct leaves *)
Definition target_delta (rate : R) (t s : tens R) : res (tens R * bool) :=
  diff <- binary_op Rnum fresh BSub false (NOther t) (NOther s) ;;
  r <- build_unary Rnum fresh (UMulL rate) (NOther diff) ;;
  Ok (r, Reqb 0 rate).

(** variable.ipp:158-192 assign_sub and running the updater it returns (values only; the
    tensor-level model is LeafModel.v: make_updater, run_updater) *)
Definition assign_sub (t : tens R) (arg : tens R * bool) : res (tens R) :=
  let '(a, con) := arg in
  if con && const_is Rnum a 0 then Ok t
  else if con then
    _ <- assert_ (n_elems (fst t) <=? length (snd a))%nat ;;
    d <- for_ (n_elems (fst t)) (fun i d => x <- rd d i ;; y <- rd (snd a) i ;; wr d i (x - y)) (snd t) ;;
    Ok (fst t, d)
  else
    _ <- assert_ (n_elems (fst a) =? n_elems (fst t))%nat ;;
    d <- for_ (n_elems (fst a)) (fun i d => x <- rd d i ;; y <- rd (snd a) i ;; wr d i (x - y)) (snd t) ;;
    Ok (fst t, d).

(** dq_net.cpp:310-323 builds one updater per variable, 152-155 runs them in order *)
Definition target_updates (rate : R) (tgt src : list (tens R)) : res (list (tens R)) :=
  _ <- assert_ (length src =? length tgt)%nat ;;
  for_ (length tgt) (fun i tgt =>
    t <- rd tgt i ;; s <- rd src i ;;
    delta <- target_delta rate t s ;;
    t' <- assign_sub t delta ;;
    wr tgt i t') tgt.

(** dq_net.cpp:102-162 train *)
Definition train (upd : batch -> list (tens R) -> list (tens R) -> list (tens R)) (d : dqn) (indices : list nat) : res dqn :=
  m <- umod (n_train_called d) (train_interval (d_par d)) ;;
  if (m =? 0)%nat then
    if (length (experiences d) <? mini_batch_size (d_par d))%nat then Ok d
    else
      samples <- random_sample d indices ;;
      b <- make_batch (d_ninput d) (d_noutput d) samples ;;
      let src := upd b (source_vars d) (target_vars d) in
      tgt <- target_updates (target_update_rate (d_par d)) (target_vars d) src ;;
      Ok (mkD (d_par d) (d_ninput d) (d_noutput d) (actions_executed d) (S (iteration d))
              (n_store_called d) (S (n_train_called d)) (experiences d) src tgt (Some b))
  else
    Ok (mkD (d_par d) (d_ninput d) (d_noutput d) (actions_executed d) (iteration d)
            (n_store_called d) (S (n_train_called d)) (experiences d) (source_vars d) (target_vars d) (fed d)).
End Target.

(** dq_net.cpp:327-333 linear_annealing *)
Definition linear_annealing (d : dqn) (initial_prob : R) : R :=
  if Rle_dec (exploration_period (d_par d)) (INR (actions_executed d)) then rand_action_prob (d_par d)
  else initial_prob - INR (actions_executed d) * (initial_prob - rand_action_prob (d_par d)) / exploration_period (d_par d).

(** dq_net.cpp:72-85 action; [r1] and [r2] are the values get_random returns, [greedy] the
    elements of best_output_ evaluated on the input *)
Definition action (d : dqn) (r1 r2 : R) (greedy : list R) : res (dqn * R) :=
  let d1 := mkD (d_par d) (d_ninput d) (d_noutput d) (S (actions_executed d)) (iteration d)
                (n_store_called d) (n_train_called d) (experiences d) (source_vars d) (target_vars d) (fed d) in
  let exploration := linear_annealing d1 1 in
  if Rltb r1 exploration then Ok (d1, IZR (Int_part (r2 * INR (d_noutput d))))
  else
    _ <- assert_ (negb (length greedy =? 0)%nat) ;;
    best <- rd greedy 0 ;;
    Ok (d1, best).

(** a user's sequence of calls *)
Inductive dop :=
| DStore (e : exp_batch)
| DTrain (upd : batch -> list (tens R) -> list (tens R) -> list (tens R)) (indices : list nat)
| DAction (r1 r2 : R) (greedy : list R).

Definition dstep (fresh : nat -> R) (d : dqn) (o : dop) : res dqn :=
  match o with
  | DStore e => store d e
  | DTrain upd indices => train fresh upd d indices
  | DAction r1 r2 greedy => r <- action d r1 r2 greedy ;; Ok (fst r)
  end.
Fixpoint drun (fresh : nat -> R) (d : dqn) (ops : list dop) : res dqn :=
  match ops with [] => Ok d | o :: ops => d' <- dstep fresh d o ;; drun fresh d' ops end.
