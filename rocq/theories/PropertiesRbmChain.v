(** Generated by tools/genprops.py from RbmChainLaws.v: property statements only. *)
From Coq Require Import String Reals Lra Lia.
From Verif Require Import Common CseModel CseSpec ShapeModel ShapeSpec ShapeProofs TransformModel TransformProofs FitModel FitProofs MatmulSpec MatmulModel MatmulProofs Matmul2Proofs ElemSpec ElemModel ElemProofs NumSpec RealNum ElemLaws GradModel GradSpec GradProofs MatrixSpec MatrixProofs LeafModel LeafProofs MlpSpec MlpModel MlpProofs MlpLaws RbmSpec RbmModel RbmLaws GroupModel RbmTrainModel RbmTrainSpec RbmTrainLaws SampleModel SampleSpec RbmChainModel RbmChainProofs.
From Verif Require NetProofs NetLaws TrainSpec.
Local Open Scope list_scope.
From Verif Require Import RbmChainLaws.

(** Sampling a node of probabilities: one draw for every element, each between 0 and the number of trials. *)
Theorem C60_sample :
  forall fresh draw (n : nat) (t : tens R), binomial draw ->
    is_fully_defined (fst t) = true -> length (snd t) = n_elems (fst t) ->
    (Forall (fun p => 0 <= p <= 1)%R (snd t) ->
      exists s, sample_value Rnum fresh draw (INR n) t = Ok s /\
        fst s = (if n_elems (fst t) =? 1 then [1] else fst t) /\ length (snd s) = length (snd t) /\
        forall i p, nth_error (snd t) i = Some p -> exists j, nth_error (snd s) i = Some (INR j) /\ j <= n /\ (p = 0%R -> j = 0) /\ (p = 1%R -> j = n)) /\
    (Exists (fun p => p < 0 \/ 1 < p)%R (snd t) -> sample_value Rnum fresh draw (INR n) t = Abort).
Proof. exact C60_sample_lemma. Qed.
Print Assumptions C60_sample.

(** Finding: sampling from a constant of any size writes to a vector of no elements. *)
Theorem C60_sample_constant_refuted :
  forall (T : Type) (draw : nat -> T -> T -> T) n (t : tens T), snd t <> [] -> sample_const draw n t = UB.
Proof. exact C60_sample_constant_refuted_lemma. Qed.
Print Assumptions C60_sample_constant_refuted.

(** Finding: sampling with nodes for both the trials and the probabilities reads an argument
    that the node does not have. *)
Theorem C60_sample_two_nodes_refuted :
  forall (T : Type) (N : num T) fresh draw (tn tp : tens T),
    is_fully_defined (fst tp) = true -> length (snd tp) = n_elems (fst tp) -> 0 < n_elems (fst tp) -> sample_both_value N fresh draw tn tp = UB.
Proof. exact C60_sample_two_nodes_refuted_lemma. Qed.
Print Assumptions C60_sample_two_nodes_refuted.

(** The Gibbs chain that train builds: started with hidden units drawn from their distribution
    given the input (or with the persistent variable's value), c rounds of drawing the visible
    units given the hidden ones and the hidden units given these. The chain's end is the visible
    state of the last round, for every sample of the batch a vector of 0s and 1s; the state kept
    for the next call is the hidden state after it, and final_visible_dist the distribution the
    chain's end was drawn from. No variable changes. *)
Theorem C60_chain :
  forall (of_nat : nat -> R) (draw : nat -> nat -> R -> R -> R) fresh use (env : nat -> tens R) (n h b : nat) scope st m st' k c,
    (forall k, binomial (draw k)) -> 0 < n -> 0 < h -> 0 < b -> 0 < c ->
    rbm_new Rnum of_nat n h scope st = (m, st') -> length st' <= k ->
    exists w hb vb, rbm_variables m = [Some w; Some hb; Some vb] /\
    (initialized env st' w -> initialized env st' hb -> initialized env st' vb ->
      forall input t (persistent : option nat), eval Rnum fresh use env input = Ok t -> matrix n b t ->
      match persistent with None => True | Some p => p < k /\ matrix h b (env p) end ->
      let up (v : nat -> R) j := logistic (Sum (fun q => v q * entry 0 h (env w) j q) n + nth j (snd (env hb)) 0)%R in
      let down (u : nat -> R) q := logistic (Sum (fun j => u j * entry 0 h (env w) j q) h + nth q (snd (env vb)) 0)%R in
      let s := match persistent with None => k + 1 | Some _ => k end in
      let start j y := match persistent with None => draw k (j + h * y) 1%R (up (fun q => entry 0%R n t q y) j) | Some p => entry 0%R h (env p) j y end in
      exists env' chain_end chain_it dist ti td,
        rbm_chain Rnum fresh use draw m env k input persistent c = Ok (env', chain_end, chain_it, dist) /\
        k <= chain_end /\ (forall i, i < k -> env' i = env i) /\
        matrix n b (env' chain_end) /\
        (forall q y, q < n -> y < b -> entry 0%R n (env' chain_end) q y = visible_state n h up down draw s start (c - 1) q y) /\
        (forall q y, q < n -> y < b -> entry 0%R n (env' chain_end) q y = 0%R \/ entry 0%R n (env' chain_end) q y = 1%R) /\
        eval Rnum fresh use env' chain_it = Ok ti /\ matrix h b ti /\
        (forall j y, j < h -> y < b -> entry 0%R h ti j y = hidden_state n h up down draw s start c j y) /\
        eval Rnum fresh use env' dist = Ok td /\ matrix n b td /\
        (forall q y, q < n -> y < b -> entry 0%R n td q y = down (fun j => hidden_state n h up down draw s start (c - 1) j y) q)).
Proof. exact C60_chain_lemma. Qed.
Print Assumptions C60_chain.

(** Finding: with no round (n_cont_div = 0) train dereferences a null pointer. *)
Theorem C60_no_round_refuted :
  forall (of_nat : nat -> R) (draw : nat -> nat -> R -> R -> R) fresh use (env : nat -> tens R) (n h b : nat) scope st m st' k,
    0 < n -> 0 < h -> 0 < b ->
    rbm_new Rnum of_nat n h scope st = (m, st') -> length st' <= k ->
    exists w hb vb, rbm_variables m = [Some w; Some hb; Some vb] /\
    (initialized env st' w -> initialized env st' hb -> initialized env st' vb ->
      forall same lr input t persistent, eval Rnum fresh use env input = Ok t -> matrix n b t ->
      rbm_train Rnum fresh use of_nat draw same m env k lr input persistent 0 = UB).
Proof. exact C60_no_round_refuted_lemma. Qed.
Print Assumptions C60_no_round_refuted.

(** One call of train as a whole: after any draws, with the chain's end held fixed, what is
    subtracted from each element of the weight, the hidden and the visible bias is the learning
    rate times the partial derivative of mean energy of the input minus mean energy of the
    chain's end. *)
Theorem C60_train :
  forall (of_nat : nat -> R) (draw : nat -> nat -> R -> R -> R) same fresh use (env : nat -> tens R) (n h b : nat) scope st m st' k c lr,
    (forall k, binomial (draw k)) -> (forall x y, same x y = true -> x = y) -> 0 < n -> 0 < h -> 0 < b -> 0 < c -> (0 < lr)%R ->
    rbm_new Rnum of_nat n h scope st = (m, st') -> length st' <= k ->
    exists w hb vb, rbm_variables m = [Some w; Some hb; Some vb] /\
    (initialized env st' w -> initialized env st' hb -> initialized env st' vb ->
      forall input persistent, NetLaws.factor fresh use env n b input ->
      (forall v, In v [w; hb; vb] \/ k <= v -> has_leaf v input = false) ->
      match persistent with None => True | Some p => p < k /\ matrix h b (env p) end ->
      exists env' us chain_end chain_it dist cost,
        rbm_chain Rnum fresh use draw m env k input persistent c = Ok (env', chain_end, chain_it, dist) /\
        rbm_cost Rnum same m input (EVar chain_end) = Ok cost /\
        rbm_train Rnum fresh use INR draw same m env k lr input persistent c = Ok (env', us) /\ map fst us = [w; hb; vb] /\
        (forall i, i < k -> env' i = env i) /\
        forall v u, In (v, u) us -> exists d new, geval Rnum fresh use INR env' u = Ok d /\ TrainSpec.tensor_sub (env v) d = Some new /\
          fst new = fst (env v) /\ length (snd new) = length (snd (env v)) /\
          forall k, k < length (snd (env v)) -> exists slope,
            derivable_pt_lim (fun x => elem (geval Rnum fresh use INR (set_elem env' v k x) cost) 0) (nth k (snd (env v)) 0%R) slope /\
            nth k (snd new) 0%R = (nth k (snd (env v)) 0 - lr * slope)%R).
Proof. exact C60_train_lemma. Qed.
Print Assumptions C60_train.

(** Hypotheses met: draws that succeed only when they must, a machine of two visible and one
    hidden unit, a batch of two samples, and a persistent state. *)
Example C60_nonvacuous :
  binomial (fun _ n p => if Req_EM_T p 1 then n else 0%R) /\
  exists (env : nat -> tens R) (m : rbm) (st : store),
    rbm_new Rnum INR 2 1 "r"%string [] = (m, st) /\ rbm_variables m = [Some 0; Some 1; Some 2] /\ length st <= 5 /\
    initialized env st 0 /\ initialized env st 1 /\ initialized env st 2 /\
    NetLaws.factor (fun _ => 0%R) false env 2 2 (EVar 3) /\ 4 < 5 /\ matrix 1 2 (env 4) /\
    (forall v, In v [0; 1; 2] \/ 5 <= v -> @has_leaf R v (EVar 3) = false).
Proof. exact C60_nonvacuous_lemma. Qed.
