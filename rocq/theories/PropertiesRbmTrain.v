(** Generated by tools/genprops.py from RbmTrainLaws.v: property statements only. *)
From Coq Require Import String Reals Lra Lia.
From Verif Require Import Common CseModel CseSpec ShapeModel ShapeSpec ShapeProofs TransformSpec TransformModel TransformProofs TransformLaws FitModel FitProofs MatmulSpec MatmulModel MatmulProofs Matmul2Proofs MatmulLaws ElemSpec ElemModel ElemProofs NumSpec RealNum ElemLaws GradModel GradProofs MatrixSpec MatrixProofs LeafModel LeafProofs LeafLaws MlpSpec MlpModel MlpProofs MlpLaws MeanLaws RbmSpec RbmModel RbmLaws GroupModel GroupProofs RbmTrainModel RbmCalc RbmTrainProofs RbmTrainValues RbmTrainCost.
From Verif Require Import GradSpec RbmTrainSpec.
From Verif Require NetProofs NetLaws CrossCorrProofs TrainSpec.
Local Open Scope list_scope.
From Verif Require Import RbmTrainLaws.

(** The cost that train follows has, with respect to each of the machine's three variables, a
    gradient node, and its value holds the partial derivatives of the cost by every element of
    that variable. *)
Theorem C59_training_gradient :
  forall (of_nat : nat -> R) same fresh use (env : nat -> tens R) (n h b b' : nat) scope st m st',
    (forall x y, same x y = true -> x = y) -> 0 < n -> 0 < h ->
    rbm_new Rnum of_nat n h scope st = (m, st') ->
    exists w hb vb, rbm_variables m = [Some w; Some hb; Some vb] /\
    (initialized env st' w -> initialized env st' hb -> initialized env st' vb ->
      forall input chain_end, NetLaws.factor fresh use env n b input -> NetLaws.factor fresh use env n b' chain_end -> input <> chain_end ->
      (forall v, In v [w; hb; vb] -> has_leaf v input = false /\ has_leaf v chain_end = false) ->
      exists cost, rbm_cost Rnum same m input chain_end = Ok cost /\
      forall v, In v [w; hb; vb] -> exists Y y,
        gderive Rnum fresh use INR same env v cost = Ok Y /\ geval Rnum fresh use INR env Y = Ok y /\
        gradient_of (fun env => geval Rnum fresh use INR env cost) env v y).
Proof. exact C59_training_gradient_lemma. Qed.
Print Assumptions C59_training_gradient.

(** The gradients are those of contrastive divergence: for the weight between a hidden and a
    visible unit, the mean over the chain's end of visible value times probability of the hidden
    unit, minus the same mean over the input; for a hidden bias, of the probability of the
    hidden unit; for a visible bias, of the visible value. *)
Theorem C59_contrastive_divergence :
  forall (of_nat : nat -> R) same fresh use (env : nat -> tens R) (n h b b' : nat) scope st m st',
    (forall x y, same x y = true -> x = y) -> 0 < n -> 0 < h ->
    rbm_new Rnum of_nat n h scope st = (m, st') ->
    exists w hb vb, rbm_variables m = [Some w; Some hb; Some vb] /\
    (initialized env st' w -> initialized env st' hb -> initialized env st' vb ->
      forall input chain_end t t', NetLaws.factor fresh use env n b input -> NetLaws.factor fresh use env n b' chain_end -> input <> chain_end ->
      eval Rnum fresh use env input = Ok t -> eval Rnum fresh use env chain_end = Ok t' ->
      (forall v, In v [w; hb; vb] -> has_leaf v input = false /\ has_leaf v chain_end = false) ->
      let p (s : tens R) k j := logistic (Sum (fun q => entry 0 n s q k * entry 0 h (env w) j q) n + nth j (snd (env hb)) 0)%R in
      exists cost YW yW YH yH YV yV, rbm_cost Rnum same m input chain_end = Ok cost /\
        gderive Rnum fresh use INR same env w cost = Ok YW /\ geval Rnum fresh use INR env YW = Ok yW /\
        gderive Rnum fresh use INR same env hb cost = Ok YH /\ geval Rnum fresh use INR env YH = Ok yH /\
        gderive Rnum fresh use INR same env vb cost = Ok YV /\ geval Rnum fresh use INR env YV = Ok yV /\
        (forall j q, j < h -> q < n -> entry 0%R h yW j q = (mean b' (fun k => entry 0 n t' q k * p t' k j) - mean b (fun k => entry 0 n t q k * p t k j))%R) /\
        (forall j, j < h -> nth j (snd yH) 0%R = (mean b' (fun k => p t' k j) - mean b (fun k => p t k j))%R) /\
        (forall q, q < n -> nth q (snd yV) 0%R = (mean b' (fun k => entry 0 n t' q k) - mean b (fun k => entry 0 n t q k))%R)).
Proof. exact C59_contrastive_divergence_lemma. Qed.
Print Assumptions C59_contrastive_divergence.

(** The updates that train makes: for each variable in turn the node of learning rate times
    gradient. Subtracting its value changes every element of the variable by minus the learning
    rate times the cost's partial derivative by that element. *)
Theorem C59_updates :
  forall (of_nat : nat -> R) same fresh use (env : nat -> tens R) (n h b b' : nat) scope st m st' lr,
    (forall x y, same x y = true -> x = y) -> 0 < n -> 0 < h -> (0 < lr)%R ->
    rbm_new Rnum of_nat n h scope st = (m, st') ->
    exists w hb vb, rbm_variables m = [Some w; Some hb; Some vb] /\
    (initialized env st' w -> initialized env st' hb -> initialized env st' vb ->
      forall input chain_end, NetLaws.factor fresh use env n b input -> NetLaws.factor fresh use env n b' chain_end -> input <> chain_end ->
      (forall v, In v [w; hb; vb] -> has_leaf v input = false /\ has_leaf v chain_end = false) ->
      exists cost us, rbm_cost Rnum same m input chain_end = Ok cost /\
      rbm_updates Rnum fresh use INR same m env lr input chain_end = Ok us /\ map fst us = [w; hb; vb] /\
      forall v u, In (v, u) us -> exists d new, geval Rnum fresh use INR env u = Ok d /\ TrainSpec.tensor_sub (env v) d = Some new /\
        fst new = fst (env v) /\ length (snd new) = length (snd (env v)) /\
        forall k, k < length (snd (env v)) -> exists slope,
          derivable_pt_lim (fun x => elem (geval Rnum fresh use INR (set_elem env v k x) cost) 0) (nth k (snd (env v)) 0%R) slope /\
          nth k (snd new) 0%R = (nth k (snd (env v)) 0 - lr * slope)%R).
Proof. exact C59_updates_lemma. Qed.
Print Assumptions C59_updates.

(** The gradient construction of this model and that of C35 to C37 are the same where both apply: for every
    expression without a reduction along an axis of something that depends on the variable. *)
Theorem C59_same_as_before :
  forall (T : Type) (N : num T) fresh use of_nat (same : @gexpr T -> @gexpr T -> bool) env v (e : @expr T), no_axis_sum v e ->
    geval N fresh use of_nat env (inj e) = eval N fresh use env e /\
    gderive N fresh use of_nat same env v (inj e) =
      match derive N fresh use (fun a b => same (inj a) (inj b)) env v e with Ok d => Ok (inj d) | Throw => Throw | Abort => Abort | UB => UB end.
Proof. exact C59_same_as_before_lemma. Qed.
Print Assumptions C59_same_as_before.

(** Finding 1: below two operations, the gradient of a sum along an axis cannot be evaluated:
    sin(sin(reduce_sum(sin(x), 0))) has a value for every x of shape [3; 2], its derive node is
    built, and evaluating that node throws (the note that selects the axial product is lost
    after the first product). *)
Theorem C59_axis_sum_below_two_operations_refuted :
  forall (T : Type) (N : num T) fresh use of_nat same (env : nat -> tens T) (a b c d e f : T),
    (forall x y, same x y = true -> x = y) -> n_eqb N (n_zero N) (n_one N) = false -> n_eqb N (n_one N) (n_one N) = true ->
    env 0 = ([3; 2], [a; b; c; d; e; f]) ->
    let s := GSum (Some 0) (GUn USin (GVar 0)) in
    let node := GUn USin (GUn USin s) in
    (exists t, geval N fresh use of_nat env node = Ok t /\ fst t = [2]) /\
    exists Y, gderive N fresh use of_nat same env 0 node = Ok Y /\ geval N fresh use of_nat env Y = Throw.
Proof. exact C59_axis_sum_below_two_operations_refuted_lemma. Qed.
Print Assumptions C59_axis_sum_below_two_operations_refuted.

(** Finding 2: when the dimension left by the sum equals the one summed over, evaluating the
    gradient reads outside of the argument's elements: sin(reduce_sum(sin(x), 0)) with x of
    shape [2; 2]. *)
Theorem C59_axis_sum_square_refuted :
  forall (T : Type) (N : num T) fresh use of_nat same (env : nat -> tens T) (a b c d : T),
    (forall x y, same x y = true -> x = y) -> n_eqb N (n_zero N) (n_one N) = false -> n_eqb N (n_one N) (n_one N) = true ->
    env 0 = ([2; 2], [a; b; c; d]) ->
    let node := GUn USin (GSum (Some 0) (GUn USin (GVar 0))) in
    (exists t, geval N fresh use of_nat env node = Ok t /\ fst t = [2]) /\
    exists Y, gderive N fresh use of_nat same env 0 node = Ok Y /\ geval N fresh use of_nat env Y = UB.
Proof. exact C59_axis_sum_square_refuted_lemma. Qed.
Print Assumptions C59_axis_sum_square_refuted.

(** Hypotheses met: a machine of two visible and one hidden unit, an input batch of two samples
    and a chain end of three. *)
Example C59_nonvacuous :
  exists (env : nat -> tens R) (m : rbm) (st : store),
    rbm_new Rnum INR 2 1 "r"%string [] = (m, st) /\ rbm_variables m = [Some 0; Some 1; Some 2] /\
    initialized env st 0 /\ initialized env st 1 /\ initialized env st 2 /\
    NetLaws.factor (fun _ => 0%R) false env 2 2 (EVar 3) /\ NetLaws.factor (fun _ => 0%R) false env 2 3 (EVar 4) /\
    (forall v, In v [0; 1; 2] -> @has_leaf R v (EVar 3) = false /\ @has_leaf R v (EVar 4) = false) /\
    @EVar R 3 <> EVar 4.
Proof. exact C59_nonvacuous_lemma. Qed.
