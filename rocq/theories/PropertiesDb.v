(** Generated by tools/genprops.py from DbLaws.v: property statements only. *)
From Coq Require Import String Reals Lra Lia Permutation ClassicalDescription.
From Verif Require Import Common CseModel ShapeModel ShapeProofs MatmulSpec ElemModel ElemProofs NumSpec RealNum GradModel GradSpec GradProofs MatrixSpec MatrixProofs MlpSpec MlpModel MlpProofs MlpLaws GroupModel SampleSpec RbmSpec RbmTrainModel RbmChainModel DbSpec DbModel DbGrad DbNet.
From Verif Require DqnModel NetProofs NetLaws TrainSpec CopyLaws RbmTrainProofs DbCalc DbFine DbStep DbBias DbPre.
Local Open Scope list_scope.
From Verif Require Import DbLaws.

(** prop_up of a batch of b samples: element i of the output is the share of the i-th of all
    b times c numbers that the last layer sums up, so all outputs of the batch are positive
    and sum up to 1. Inputs of the wrong size are refused, and so is an empty list of sizes. *)
Theorem C61_value :
  (forall (of_nat : nat -> R) same fresh use (env : nat -> tens R) (n b : nat) sizes scope st d st',
    (forall x y, same x y = true -> x = y) -> 0 < n -> 0 < b -> Forall (fun h => 0 < h) sizes ->
    db_new Rnum of_nat n sizes scope st = Ok (d, st') ->
    d_nout d = last sizes 0 /\
    exists vars, db_variables d = Ok (map Some vars) /\ NoDup vars /\ (forall v, In v vars -> length st <= v < length st') /\
    ((forall v, In v vars -> initialized env st' v) ->
      forall e t, eval Rnum fresh use env e = Ok t -> matrix n b t ->
      let z := logit env vars sizes n t in let m := n_out sizes b in
      exists e' t', db_prop_up Rnum same d e [n; b] = Ok e' /\ eval Rnum fresh use env e' = Ok t' /\ matrix (last sizes 0) b t' /\
        (forall i, i < m -> nth i (snd t') 0%R = share z m i /\ (0 < share z m i)%R) /\ Sum (share z m) m = 1%R)) /\
  (forall (T : Type) (N : num T) same d e s, is_compatible_with s [d_nin d; 0] = Ok false -> db_prop_up N same d e s = Abort) /\
  (forall (T : Type) (N : num T) of_nat n scope st, db_new N of_nat n [] scope st = Abort).
Proof. exact C61_value_lemma. Qed.
Print Assumptions C61_value.

(** Finding: softmax divides by the sum over the whole batch. In a batch of more than one
    sample the outputs of each sample sum up to less than 1, so they are not a distribution,
    and what the network gives for one sample depends on the others. *)
Theorem C61_rows_refuted :
  (forall (z : nat -> R) (c b y : nat), 0 < c -> 1 < b -> y < b -> (Sum (fun x => share z (c * b) (x + c * y)) c < 1)%R) /\
  (forall (z z' : nat -> R) (c b i : nat), 0 < c -> i < c -> 1 < b -> (forall j, j < c -> z' j = z j) -> (forall j, c <= j < c * b -> (z j < z' j)%R) ->
     (share z' (c * b) i < share z (c * b) i)%R).
Proof. exact C61_rows_refuted_lemma. Qed.
Print Assumptions C61_rows_refuted.

(** Pretraining: the i-th training function trains the i-th machine on what the machines below
    compute from the input (the same numbers that prop_up feeds to it), with its chain started
    from that input. What it subtracts from each element of that machine's weights, hidden
    and visible biases is the learning rate times the partial derivative of the machine's
    cost, mean energy of its input minus mean energy of the chain's end. The parameters of
    the last layer are never changed. *)
Theorem C61_pretrain :
  forall (of_nat : nat -> R) (draw : nat -> nat -> R -> R -> R) same fresh use (env : nat -> tens R) (n b : nat) sizes scope st d st' k c lr input,
    (forall k, binomial (draw k)) -> (forall x y, same x y = true -> x = y) -> 0 < n -> 0 < b -> 0 < c -> (0 < lr)%R -> Forall (fun h => 0 < h) sizes ->
    db_new Rnum of_nat n sizes scope st = Ok (d, st') -> length st' <= k ->
    exists vars, db_variables d = Ok (map Some vars) /\
    ((forall v, In v vars -> initialized env st' v) -> ~ In input vars -> input < k -> matrix n b (env input) ->
      exists env' uss, db_pretrain Rnum fresh use INR draw same d env k input lr c = Ok (env', uss) /\
        length uss = length sizes - 1 /\ (forall i, i < k -> env' i = env i) /\
        forall j us, nth_error uss j = Some us ->
          let size := nth j (n :: sizes) 0 in
          exists machine node t env_j chain_end cost,
            nth_error (d_layers d) j = Some machine /\
            (forall i, i < k -> env_j i = env i) /\
            eval Rnum fresh use env_j node = Ok t /\ matrix size b t /\
            (forall x y, x < size -> y < b -> entry 0%R size t x y = net_value 0%R Rplus Rmult n (firstn j (belief_layers env vars sizes)) (entry 0%R n (env input)) x y) /\
            (exists env0 k0 it dist, k <= k0 /\ (forall i, i < k -> env0 i = env i) /\ rbm_chain Rnum fresh use draw machine env0 k0 node None c = Ok (env_j, chain_end, it, dist)) /\
            rbm_cost Rnum same machine node (EVar chain_end) = Ok cost /\
            map fst us = firstn 3 (skipn (3 * j) vars) /\
            forall v u, In (v, u) us -> exists delta new, geval Rnum fresh use INR env_j u = Ok delta /\ TrainSpec.tensor_sub (env v) delta = Some new /\
              fst new = fst (env v) /\ length (snd new) = length (snd (env v)) /\
              forall q, q < length (snd (env v)) -> exists slope,
                derivable_pt_lim (fun x => elem (geval Rnum fresh use INR (set_elem env_j v q x) cost) 0) (nth q (snd (env v)) 0%R) slope /\
                nth q (snd new) 0%R = (nth q (snd (env v)) 0 - lr * slope)%R).
Proof. exact C61_pretrain_lemma. Qed.
Print Assumptions C61_pretrain.

(** Fine tuning: the cost of the functions is minus the mean logarithm of the outputs, the
    reported error is the mean square of the difference to the labels, and there is one step
    for every parameter. An element of a parameter that moves output sum i at the rate D i
    gets the learning rate times the sum of (share i - 1) / m times D i subtracted, where the
    slope of the cost is the sum of (share i - 1 / m) times D i: softmax's denominator takes
    part with 1 / m of its weight. *)
Theorem C61_finetune :
  forall (of_nat : nat -> R) same fresh use (env : nat -> tens R) (n b : nat) sizes scope st d st' train_in train_out lr,
    (forall a b, same a b = true -> a = b) -> (forall tA tB a b, same (GMat tA tB a b) (GMat tA tB a b) = true) -> (forall axis a b, same (GAx BAdd false axis a b) (GAx BAdd false axis a b) = true) ->
    0 < n -> 0 < b -> (0 < lr)%R -> Forall (fun h => 0 < h) sizes -> db_new Rnum of_nat n sizes scope st = Ok (d, st') ->
    exists vars, db_variables d = Ok (map Some vars) /\ NoDup vars /\
    ((forall v, In v vars -> initialized env st' v) -> ~ In train_in vars -> matrix n b (env train_in) -> fst (env train_in) = [n; b] -> matrix (last sizes 0) b (env train_out) ->
      let m := n_out sizes b in let f := fun e => logit e vars sizes n (env train_in) in
      exists cost us error tc te,
        db_finetune Rnum fresh use INR same d env train_in train_out lr = Ok (cost, us, error) /\
        geval Rnum fresh use INR env cost = Ok tc /\ snd tc = [log_cost (f env) m] /\
        geval Rnum fresh use INR env error = Ok te /\ snd te = [(Sum (fun i => (share (f env) m i - nth i (snd (env train_out)) 0) ^ 2) m / INR m)%R] /\
        map fst us = vars /\
        forall v u, In (v, u) us -> exists delta new, geval Rnum fresh use INR env u = Ok delta /\
          DqnModel.assign_sub (env v) (delta, match u with GConst _ => true | _ => false end) = Ok new /\
          fst new = fst (env v) /\ length (snd new) = length (snd (env v)) /\
          forall q, q < length (snd (env v)) -> exists D : nat -> R,
            (forall i, i < m -> derivable_pt_lim (fun x => f (set_elem env v q x) i) (nth q (snd (env v)) 0%R) (D i)) /\
            derivable_pt_lim (fun x => log_cost (f (set_elem env v q x)) m) (nth q (snd (env v)) 0%R) (Sum (fun i => (share (f env) m i - 1 / INR m) * D i) m)%R /\
            nth q (snd new) 0%R = (nth q (snd (env v)) 0 - lr * Sum (fun i => (share (f env) m i - 1) / INR m * D i) m)%R).
Proof. exact C61_finetune_lemma. Qed.
Print Assumptions C61_finetune.

(** Finding: the cost that fine tuning watches does not depend on the labels; its least value
    is the logarithm of the number of outputs, reached when the network gives the same output
    for everything. *)
Theorem C61_cost_refuted :
  (forall (z : nat -> R) (m : nat), 0 < m -> (ln (INR m) <= log_cost z m)%R) /\
  (forall (z : nat -> R) (m : nat), 0 < m -> (forall i, i < m -> z i = z 0) -> log_cost z m = ln (INR m)) /\
  (forall (T : Type) (N : num T) fresh use of_nat same (d : db_net) (env : nat -> tens T) train_in labels labels' lr cost us error cost' us' error',
     db_finetune N fresh use of_nat same d env train_in labels lr = Ok (cost, us, error) ->
     db_finetune N fresh use of_nat same d env train_in labels' lr = Ok (cost', us', error') -> cost' = cost /\ us' = us).
Proof. exact C61_cost_refuted_lemma. Qed.
Print Assumptions C61_cost_refuted.

(** Finding: what is subtracted from the biases of the last layer is always negative. Whatever
    the data and the labels, each step raises each of these biases, also where all outputs
    are the same and the slope of the cost along every parameter is 0. *)
Theorem C61_bias_refuted :
  forall (of_nat : nat -> R) same fresh use (env : nat -> tens R) (n b : nat) sizes scope st d st' train_in train_out lr,
    (forall a b, same a b = true -> a = b) -> (forall tA tB a b, same (GMat tA tB a b) (GMat tA tB a b) = true) -> (forall axis a b, same (GAx BAdd false axis a b) (GAx BAdd false axis a b) = true) ->
    0 < n -> 0 < b -> (0 < lr)%R -> Forall (fun h => 0 < h) sizes -> db_new Rnum of_nat n sizes scope st = Ok (d, st') ->
    exists vars, db_variables d = Ok (map Some vars) /\
    ((forall v, In v vars -> initialized env st' v) -> ~ In train_in vars -> matrix n b (env train_in) -> fst (env train_in) = [n; b] -> matrix (last sizes 0) b (env train_out) -> 1 < n_out sizes b ->
      let m := n_out sizes b in let f := fun e => logit e vars sizes n (env train_in) in
      exists cost us error u delta new,
        db_finetune Rnum fresh use INR same d env train_in train_out lr = Ok (cost, us, error) /\ In (last vars 0, u) us /\
        geval Rnum fresh use INR env u = Ok delta /\ DqnModel.assign_sub (env (last vars 0)) (delta, match u with GConst _ => true | _ => false end) = Ok new /\
        length (snd (env (last vars 0))) = last sizes 0 /\
        (forall q, q < last sizes 0 -> (nth q (snd (env (last vars 0%nat))) 0 < nth q (snd new) 0)%R) /\
        ((forall i, i < m -> f env i = f env 0) -> forall v q, In v vars -> q < length (snd (env v)) ->
           derivable_pt_lim (fun x => log_cost (f (set_elem env v q x)) m) (nth q (snd (env v)) 0%R) 0%R)).
Proof. exact C61_bias_refuted_lemma. Qed.
Print Assumptions C61_bias_refuted.

(** Hypotheses met: two inputs, one hidden layer of one unit, two outputs, a batch of two, for
    values where the outputs differ. *)
Example C61_nonvacuous :
  exists (env : nat -> tens R) (d : db_net) (st' : store) (same : @gexpr R -> @gexpr R -> bool),
    (forall a b, same a b = true -> a = b) /\ (forall tA tB a b, same (GMat tA tB a b) (GMat tA tB a b) = true) /\ (forall axis a b, same (GAx BAdd false axis a b) (GAx BAdd false axis a b) = true) /\
    binomial (fun _ n p => if Req_EM_T p 1 then n else 0%R) /\
    db_new Rnum INR 2 [1; 2] "d"%string [] = Ok (d, st') /\ db_variables d = Ok (map Some [0; 1; 2; 3; 4]) /\ length st' <= 7 /\
    (forall v, In v [0; 1; 2; 3; 4] -> initialized env st' v) /\ matrix 2 2 (env 5) /\ fst (env 5) = [2; 2] /\ matrix (last [1; 2] 0) 2 (env 6) /\ 1 < n_out [1; 2] 2 /\
    share (logit env [0; 1; 2; 3; 4] [1; 2] 2 (env 5)) 4 1 <> share (logit env [0; 1; 2; 3; 4] [1; 2] 2 (env 5)) 4 0.
Proof. exact C61_nonvacuous_lemma. Qed.
