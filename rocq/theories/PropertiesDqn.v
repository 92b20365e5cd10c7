(** Generated by tools/genprops.py from DqnLaws.v: property statements only. *)
From Coq Require Import Reals Lra Psatz Sorting.Permutation FinFun.
From Verif Require Import Common ShapeModel ShapeSpec ShapeProofs ElemSpec ElemModel NumSpec ElemProofs RealNum ElemLaws DqnModel DqnSpec DqnProofs.
Local Open Scope R_scope.
From Verif Require Import DqnLaws.

(** After any history of calls: while no more than max_exp experiences have been kept, the
    memory holds exactly the kept ones, in order; afterwards it holds the last kept one,
    followed by the second, third, ... max_exp-th kept one. *)
Theorem C41_memory_contents :
  forall fresh p ninput noutput vars ops d, drun fresh (dq_new p ninput noutput vars) ops = Ok d ->
    ((length (kept p ops) <= max_exp p)%nat -> experiences d = kept p ops) /\
    (forall older newest, kept p ops = older ++ [newest] -> (max_exp p < length (kept p ops))%nat ->
       experiences d = firstn (max_exp p) (newest :: tl (kept p ops))).
Proof. exact C41_memory_contents_lemma. Qed.
Print Assumptions C41_memory_contents.

(** The memory never exceeds max_exp entries and holds only experiences that were stored. *)
Theorem C41_memory_bounded :
  forall fresh p ninput noutput vars ops d, drun fresh (dq_new p ninput noutput vars) ops = Ok d ->
    length (experiences d) = Nat.min (max_exp p) (length (kept p ops)) /\
    (forall e, In e (experiences d) -> In e (stored ops)).
Proof. exact C41_memory_bounded_lemma. Qed.
Print Assumptions C41_memory_bounded.

(** store never fails when store_interval is positive and is undefined (division by zero)
    when it is 0. *)
Theorem C41_store_total :
  forall fresh p ninput noutput vars ops d e, drun fresh (dq_new p ninput noutput vars) ops = Ok d ->
    ((0 < store_interval p)%nat -> exists d', store d e = Ok d' /\
       (n_store_called d mod store_interval p = 0 -> (0 < max_exp p)%nat -> In e (experiences d'))%nat /\
       ((n_store_called d mod store_interval p <> 0)%nat -> experiences d' = experiences d)) /\
    (store_interval p = 0%nat -> store d e = UB).
Proof. exact C41_store_total_lemma. Qed.
Print Assumptions C41_store_total.

(** Finding: a full memory does not evict its oldest entry. The second experience ever kept
    stays for ever, and each newly kept experience displaces the previously kept one. *)
Theorem C41_evicts_oldest_refuted :
  forall fresh p ninput noutput vars ops d, drun fresh (dq_new p ninput noutput vars) ops = Ok d ->
    (max_exp p < length (kept p ops))%nat ->
    (2 <= max_exp p -> nth_error (experiences d) 1 = nth_error (kept p ops) 1)%nat /\
    ((max_exp p + 2 <= length (kept p ops))%nat -> NoDup (kept p ops) -> forall older previous newest,
       kept p ops = older ++ [previous; newest] -> ~ In previous (experiences d)).
Proof. exact C41_evicts_oldest_refuted_lemma. Qed.
Print Assumptions C41_evicts_oldest_refuted.

Example C41_nonvacuous :
  forall (r : nat -> R) (x : R),
    let p := mkP 1 x x x x 2 2 2 in let e k := mkE [r k] 0 (r k) [] in
    exists d, drun (fun _ => x) (dq_new p 1 1 []) (map (fun k => DStore (e k)) (seq 0 9)) = Ok d /\
      kept p (map (fun k => DStore (e k)) (seq 0 9)) = [e 0; e 2; e 4; e 6; e 8]%nat /\
      experiences d = [e 8; e 2]%nat.
Proof. exact C41_nonvacuous_lemma. Qed.

(** The exploration probability: the initial value before any action, the final value from
    the exploration period on, always between the two, and moving monotonically towards the
    final value. *)
Theorem C42_annealing :
  forall (d d' : dqn) (initial : R),
    let final := rand_action_prob (d_par d) in let period := exploration_period (d_par d) in
    let pr := linear_annealing d initial in
    0 < period ->
    (actions_executed d = 0%nat -> pr = initial) /\
    (period <= INR (actions_executed d) -> pr = final) /\
    Rmin final initial <= pr <= Rmax final initial /\
    (d_par d' = d_par d -> (actions_executed d <= actions_executed d')%nat ->
       Rabs (linear_annealing d' initial - final) <= Rabs (pr - final) /\
       (final <= initial -> final <= linear_annealing d' initial <= pr) /\ (initial <= final -> pr <= linear_annealing d' initial <= final)).
Proof. exact C42_annealing_lemma. Qed.
Print Assumptions C42_annealing.

(** A non-positive exploration period means no annealing. *)
Theorem C42_no_period :
  forall (d : dqn) (initial : R), exploration_period (d_par d) <= 0 -> linear_annealing d initial = rand_action_prob (d_par d).
Proof. exact C42_no_period_lemma. Qed.
Print Assumptions C42_no_period.

(** The k-th action of any history (k = 1, 2, ...) explores exactly when the first random
    draw is below the annealed probability of step k; exploring gives a whole number between
    0 and the number of outputs, otherwise the action is the first element of the argmax. *)
Theorem C42_action :
  forall fresh p ninput noutput vars ops d r1 r2 greedy,
    drun fresh (dq_new p ninput noutput vars) ops = Ok d -> (0 < noutput)%nat -> 0 <= r2 < 1 -> greedy <> [] ->
    exists d' a, action d r1 r2 greedy = Ok (d', a) /\
      actions_executed d' = S (n_actions ops) /\ experiences d' = experiences d /\
      source_vars d' = source_vars d /\ target_vars d' = target_vars d /\
      (r1 < linear_annealing d' 1 -> exists k, (k < noutput)%nat /\ a = INR k /\ a <= r2 * INR noutput < a + 1) /\
      (linear_annealing d' 1 <= r1 -> hd_error greedy = Some a).
Proof. exact C42_action_lemma. Qed.
Print Assumptions C42_action.

(** Finding: the counter is increased before it is used, so that already the first action
    explores with a probability below the initial one. *)
Theorem C42_first_action_refuted :
  forall p ninput noutput vars r1 r2 greedy d' a, 1 < exploration_period p -> rand_action_prob p < 1 ->
    action (dq_new p ninput noutput vars) r1 r2 greedy = Ok (d', a) ->
    linear_annealing d' 1 = 1 - (1 - rand_action_prob p) / exploration_period p /\ linear_annealing d' 1 < 1.
Proof. exact C42_first_action_refuted_lemma. Qed.
Print Assumptions C42_first_action_refuted.

(** random_sample returns mini_batch_size entries of the memory at pairwise different
    positions, and any choice of that many different positions, in any order, can come out. *)
Theorem C42_sample :
  forall (d : dqn), (mini_batch_size (d_par d) <= length (experiences d))%nat ->
    (forall indices, shuffle_of (length (experiences d)) indices -> exists s pos,
       random_sample d indices = Ok s /\ length s = mini_batch_size (d_par d) /\ NoDup pos /\
       map Some s = map (nth_error (experiences d)) pos) /\
    (forall pos, NoDup pos -> length pos = mini_batch_size (d_par d) -> Forall (fun i => i < length (experiences d))%nat pos ->
       exists indices s, shuffle_of (length (experiences d)) indices /\ random_sample d indices = Ok s /\
         map Some s = map (nth_error (experiences d)) pos).
Proof. exact C42_sample_lemma. Qed.
Print Assumptions C42_sample.

Example C42_nonvacuous :
  forall ex_e : nat -> exp_batch,
  let d := mkD ex_par 1 3 2 0 0 0 [ex_e 7%nat; ex_e 8%nat; ex_e 9%nat] [] [] None in
  linear_annealing d 1 = 55 / 100 /\ shuffle_of 3 [2; 0; 1]%nat /\ random_sample d [2; 0; 1]%nat = Ok [ex_e 9%nat; ex_e 7%nat].
Proof. exact C42_nonvacuous_lemma. Qed.

(** One round of target updates: every target parameter t becomes (1-alpha)*t + alpha*s,
    where s is the source network's parameter at the same place; shapes are unchanged. *)
Theorem C43_target_update :
  forall fresh alpha (target source : list (tens R)),
    well_shaped target -> well_shaped source -> same_shapes target source ->
    exists target', target_updates fresh alpha target source = Ok target' /\
      well_shaped target' /\ same_shapes target' source /\
      forall i k t s, param target i k = Some t -> param source i k = Some s ->
        param target' i k = Some ((1 - alpha) * t + alpha * s) /\
        (0 <= alpha <= 1 -> Rmin t s <= (1 - alpha) * t + alpha * s <= Rmax t s).
Proof. exact C43_target_update_lemma. Qed.
Print Assumptions C43_target_update.

(** n rounds with an unchanged source leave the distance (1-alpha)^n (t - s); with
    0 < alpha < 2 it gets and stays below any bound. *)
Theorem C43_converges :
  forall fresh alpha (target source : list (tens R)),
    well_shaped target -> well_shaped source -> same_shapes target source ->
    forall i k t s, param target i k = Some t -> param source i k = Some s ->
    (forall n, exists target', iterate_updates fresh alpha source n target = Ok target' /\
       param target' i k = Some (s + (1 - alpha) ^ n * (t - s))) /\
    (0 < alpha < 2 -> forall eps, 0 < eps -> exists N, forall n target' x, (N <= n)%nat ->
       iterate_updates fresh alpha source n target = Ok target' -> param target' i k = Some x -> Rabs (x - s) < eps).
Proof. exact C43_converges_lemma. Qed.
Print Assumptions C43_converges.

(** A training step moves the target network towards the source network as it is after the
    source's own update; a network starts with target equal to source. *)
Theorem C43_train :
  forall fresh upd (d d' : dqn) indices,
    train fresh upd d indices = Ok d' -> iteration d' <> iteration d ->
    well_shaped (target_vars d) -> well_shaped (source_vars d') -> same_shapes (target_vars d) (source_vars d') ->
    same_shapes (target_vars d') (source_vars d') /\
    forall i k t s, param (target_vars d) i k = Some t -> param (source_vars d') i k = Some s ->
      param (target_vars d') i k = Some ((1 - target_update_rate (d_par d)) * t + target_update_rate (d_par d) * s).
Proof. exact C43_train_lemma. Qed.
Print Assumptions C43_train.

Example C43_nonvacuous :
  exists t', target_updates (fun _ => 0) (1 / 4) [([2%nat], [4; 8])] [([2%nat], [0; 16])] = Ok t' /\
    param t' 0 0 = Some 3 /\ param t' 0 1 = Some 10 /\ well_shaped [([2%nat], [4; 8])].
Proof. exact C43_nonvacuous_lemma. Qed.

(** The number of training steps is the number of counted train calls divided by
    train_interval, rounded up, after any history. *)
Theorem C50_cadence :
  forall fresh p ninput noutput vars ops d, drun fresh (dq_new p ninput noutput vars) ops = Ok d -> (0 < train_interval p)%nat ->
    iteration d = ((n_train_called d + (train_interval p - 1)) / train_interval p)%nat.
Proof. exact C50_cadence_lemma. Qed.
Print Assumptions C50_cadence.

(** What one train call does. Not due: only the call is counted. Due but fewer than
    mini_batch_size experiences: nothing, and the call is not counted. Otherwise: one
    step on mini_batch_size different entries of the memory. *)
Theorem C50_train_call :
  forall fresh upd (d : dqn) indices,
    (0 < train_interval (d_par d))%nat -> shuffle_of (length (experiences d)) indices ->
    Forall (fun e => action_idx e < d_noutput d)%nat (experiences d) ->
    (forall b, well_shaped (upd b (source_vars d) (target_vars d)) /\ same_shapes (target_vars d) (upd b (source_vars d) (target_vars d))) ->
    well_shaped (target_vars d) ->
    exists d', train fresh upd d indices = Ok d' /\ experiences d' = experiences d /\ actions_executed d' = actions_executed d /\
    let due := (n_train_called d mod train_interval (d_par d) = 0)%nat in
    (~ due -> n_train_called d' = S (n_train_called d) /\ iteration d' = iteration d /\
       source_vars d' = source_vars d /\ target_vars d' = target_vars d) /\
    (due -> (length (experiences d) < mini_batch_size (d_par d))%nat -> d' = d) /\
    (due -> (mini_batch_size (d_par d) <= length (experiences d))%nat ->
       n_train_called d' = S (n_train_called d) /\ iteration d' = S (iteration d) /\
       exists b l pos, fed d' = Some b /\ source_vars d' = upd b (source_vars d) (target_vars d) /\
         length l = mini_batch_size (d_par d) /\ NoDup pos /\ map Some l = map (nth_error (experiences d)) pos /\
         b_states b = concat (map observation l) /\
         b_action_mask b = concat (map (fun e => one_hot (d_noutput d) (action_idx e)) l) /\
         b_rewards b = map reward l /\
         b_new_states b = concat (map (fun e => match new_observation e with [] => repeat 0 (d_ninput d) | n => n end) l) /\
         b_new_mask b = map (fun e => match new_observation e with [] => 0 | _ => 1 end) l).
Proof. exact C50_train_call_lemma. Qed.
Print Assumptions C50_train_call.

(** Finding: an action index that is not below the number of outputs makes a training step
    that samples it write outside the mask. *)
Theorem C50_action_out_of_range_refuted :
  forall fresh upd (d : dqn) indices samples e,
    (0 < train_interval (d_par d))%nat -> (n_train_called d mod train_interval (d_par d) = 0)%nat ->
    (mini_batch_size (d_par d) <= length (experiences d))%nat -> random_sample d indices = Ok samples -> In e samples ->
    (d_noutput d <= action_idx e)%nat -> train fresh upd d indices = UB.
Proof. exact C50_action_out_of_range_refuted_lemma. Qed.
Print Assumptions C50_action_out_of_range_refuted.

Example C50_nonvacuous :
  let d := mkD ex_par 1 2 0 0 0 0 [mkE [5] 1 7 []; mkE [6] 0 8 [9]] [([1%nat], [1])] [([1%nat], [3])] None in
  exists d', train (fun _ => 0) (fun _ s _ => s) d [1; 0]%nat = Ok d' /\
    fed d' = Some (mkB [6; 5] [1; 0; 0; 1] [9; 0] [1; 0] [8; 7]) /\ iteration d' = 1%nat.
Proof. exact C50_nonvacuous_lemma. Qed.
