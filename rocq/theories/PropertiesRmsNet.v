(** Generated by tools/genprops.py from RmsNetLaws.v: property statements only. *)
From Coq Require Import String Reals Lra Lia FunctionalExtensionality.
From Verif Require Import Common ShapeModel ShapeProofs ElemModel ElemProofs NumSpec RealNum GradModel GradSpec GradProofs MatrixSpec MlpModel MlpLaws NetSpec NetMlpProofs NetLaws EvalModel EvalSpec EvalProofs EvalLaws UpdaterModel UpdaterSpec UpdaterLaws TrainModel TrainSpec TrainProofs TrainSymProofs TrainLaws CallSpec CallProofs RmsNetSym RmsNetModel RmsNetSpec RmsNetProofs.
From Verif Require RbmTrainProofs.
Local Open Scope R_scope.
From Verif Require Import RmsNetLaws.

(** A training call of a net with RMSprop updaters, whatever happened before: any number of
    updaters [L] built at any time, any number of training calls before this one. [l] are the
    updaters of this call, on different variables; their gradient nodes are in the error's
    graph and do not depend on momenta. If the call returns, every momentum is
    discount * (its initial value) + (1 - discount) * gradient^2 - whatever its value was
    before -, every variable has been decreased by
    gradient * rate / (sqrt(momentum) + epsilon), where all the gradients are those at the
    state [s0], in which the placeholders hold the batch and nothing else has changed. All
    other leaves keep their values, the error is not frozen. *)
Theorem C65_training :
  forall V compat ord top (A : arith V) L (l : list (rms_up V)) s i o e x y s',
    valid_order ord -> valid_top top ->
    rms_history compat ord top A L s -> incl l L -> NoDup (map rm_var l) -> ~ In i (map rm_mom L) -> ~ In o (map rm_mom L) ->
    (forall u, In u l -> linked s (rm_grad u) e /\ forall u', In u' L -> ~ upstream s (rm_mom u') (rm_grad u)) ->
    net_train_rms compat ord top A s i o e (map (fun u => (rm_mom u, rm_var u)) l) x y = Done s' tt ->
    rms_history compat ord top A L s' /\ is_frozen s' e = false /\
    exists s0, rms_history compat ord top A L s0 /\ fed s s0 i o x y /\ nodes s' = nodes s /\
      (forall v, leaf s v -> ~ In v (map rm_var l) -> ~ In v (map rm_mom l) -> val s' v = val s0 v) /\
      forall u, In u l -> leaf s (rm_var u) /\ leaf s (rm_mom u) /\ exists gradient momentum change old new,
        denotes s0 (rm_grad u) (Some gradient) /\
        announced A (rm_one u) gradient = Some momentum /\ val s' (rm_mom u) = Some momentum /\
        div_ A (scale_lr A gradient) (add_eps A (sqrt_ A momentum)) = Some change /\
        val s0 (rm_var u) = Some old /\ sub_ A old change = Some new /\ val s' (rm_var u) = Some new.
Proof. exact C65_training_lemma. Qed.
Print Assumptions C65_training.

(** Training a new mlp of any sizes with a batch of any size with RMSprop. The graph may have
    been used and trained in any way before; its leaves [loc v] hold the variables and
    placeholders, none of them a momentum; every parameter has exactly one updater in this call,
    whose gradient node shows the derivative of the squared error and whose momentum was
    initialised with ones. If train returns, then for every element of every parameter, with D
    the derivative of the summed squared error by that element at the inputs given and the
    parameters before the call, the momentum's element is d + (1 - d) * D^2 and the parameter's
    element has been decreased by rate * D / (sqrt(d + (1 - d) * D^2) + epsilon); shapes are kept
    and variables that are not parameters are left alone. Finding: the momentum is computed from
    its initial value at every call; gradients of earlier calls have no influence. *)
Theorem C65_rmsprop_descent :
  forall fresh use same of_nat (n r c : nat) (hs : list (nat * @act R)) scope st m st' compat ord top lr d eps loc L (l : list (rms_up (tens R))) s train_in expected x y error s' E,
    let A := real_tensors lr d eps in
    node_identity same -> valid_order ord -> valid_top top ->
    (0 < n)%nat -> (0 < r)%nat -> Forall (fun h => (0 < fst h)%nat /\ smooth_act same (snd h)) hs ->
    mlp_new Rnum of_nat n hs scope st = (m, st') -> m_nout m = Some c ->
    let env := fed_env loc s train_in expected x y in
    (forall q, In q (mlp_variables m) -> initialized env st' q) ->
    matrix n r x -> fst x = [n; r] -> matrix c r y ->
    train_in <> expected -> ~ In train_in (mlp_variables m) -> ~ In expected (mlp_variables m) ->
    gd_error Rnum same (CMlp m) train_in expected [n; r] = Ok E ->
    rms_history compat ord top A L s -> incl l L ->
    (forall u v, loc u = loc v -> u = v) -> (forall v, is_op (nodes s) (loc v) = false) -> (forall v, ~ In (loc v) (map rm_mom L)) ->
    NoDup (map rm_var l) -> (forall p, In p (mlp_variables m) -> In (loc p) (map rm_var l)) ->
    (forall u, In u l -> linked s (rm_grad u) error /\ (forall u', In u' L -> ~ upstream s (rm_mom u') (rm_grad u)) /\
       exists p Y old, In p (mlp_variables m) /\ rm_var u = loc p /\ derive Rnum fresh use same env p E = Ok Y /\ shows Rnum fresh use loc s (rm_grad u) Y /\
         val s (loc p) = Some old /\ rm_one u = ones_like old) ->
    net_train_rms compat ord top A s (loc train_in) (loc expected) error (map (fun u => (rm_mom u, rm_var u)) l) x y = Done s' tt ->
    (forall u, In u l -> exists p old new momentum, In p (mlp_variables m) /\ rm_var u = loc p /\
       val s (loc p) = Some old /\ val s' (loc p) = Some new /\ val s' (rm_mom u) = Some momentum /\
       fst new = fst old /\ length (snd new) = length (snd old) /\ fst momentum = fst old /\ length (snd momentum) = length (snd old) /\
       forall k, (k < length (snd old))%nat -> exists D,
         derivable_pt_lim (fun v => total (eval Rnum fresh use (set_elem env p k v) E)) (at_ old k) D /\
         at_ momentum k = d + (1 - d) * D ^ 2 /\
         at_ new k = at_ old k - lr * D / (sqrt (d + (1 - d) * D ^ 2) + eps)) /\
    (forall v, leaf s (loc v) -> ~ In v (mlp_variables m) -> v <> train_in -> v <> expected -> val s' (loc v) = val s (loc v)).
Proof. exact C65_rmsprop_descent_lemma. Qed.
Print Assumptions C65_rmsprop_descent.

(** The net of one input, one output and no activation function, weight 3 and bias 1, with an
    RMSprop updater for each: training on input 2 and expected output 5 - the output is 7, the
    squared error 4, its derivatives by weight and bias 8 and 4. All hypotheses of
    C65_rmsprop_descent hold. *)
Example C65_nonvacuous : forall fresh use lr d eps, exists (m : @mlp R) st (s s' : estate (tens R)) E L,
  let loc := small_loc in let x := ([1; 1]%nat, [2]) in let y := ([1; 1]%nat, [5]) in
  let env := fed_env loc s 2 3 x y in let A := real_tensors lr d eps in
  node_identity same_tree /\ valid_order (@audience (tens R)) /\ valid_top (@least (tens R)) /\
  Forall (fun h => (0 < fst h)%nat /\ smooth_act same_tree (snd h)) [(1%nat, mk_id)] /\
  mlp_new Rnum INR 1 [(1%nat, mk_id)] "net"%string [] = (m, st) /\ m_nout m = Some 1%nat /\
  (forall q, In q (mlp_variables m) -> initialized env st q) /\
  matrix 1 1 x /\ matrix 1 1 y /\ ~ In 2%nat (mlp_variables m) /\ ~ In 3%nat (mlp_variables m) /\
  gd_error Rnum same_tree (CMlp m) 2 3 [1; 1]%nat = Ok E /\
  rms_history (fun _ _ => true) audience least A L s /\ (forall u v, loc u = loc v -> u = v) /\ (forall v, is_op (nodes s) (loc v) = false) /\
  (forall v, ~ In (loc v) (map rm_mom L)) /\ map rm_var L = [1; 0]%nat /\ map rm_mom L = [27; 18]%nat /\
  NoDup (map rm_var L) /\ (forall p, In p (mlp_variables m) -> In (loc p) (map rm_var L)) /\
  (forall u, In u (rev L) -> linked s (rm_grad u) 7 /\ (forall u', In u' L -> ~ upstream s (rm_mom u') (rm_grad u)) /\
     exists p Y old, In p (mlp_variables m) /\ rm_var u = loc p /\ derive Rnum fresh use same_tree env p E = Ok Y /\ shows Rnum fresh use loc s (rm_grad u) Y /\
       val s (loc p) = Some old /\ rm_one u = ones_like old) /\
  net_train_rms (fun _ _ => true) audience least A s (loc 2%nat) (loc 3%nat) 7 (map (fun u => (rm_mom u, rm_var u)) (rev L)) x y = Done s' tt /\
  val s 0 = Some ([1; 1]%nat, [3]) /\ val s 1 = Some ([1]%nat, [1]) /\
  val s' 0 = Some ([1; 1]%nat, [3 - 8 * lr / (sqrt (d + (1 - d) * 64) + eps)]) /\ val s' 1 = Some ([1]%nat, [1 - 4 * lr / (sqrt (d + (1 - d) * 16) + eps)]) /\
  val s' 18 = Some ([1; 1]%nat, [d + (1 - d) * 64]) /\ val s' 27 = Some ([1]%nat, [d + (1 - d) * 16]).
Proof. exact C65_nonvacuous_lemma. Qed.

(** The arithmetic the updater applies is that of the library's operators on tensors of one
    shape: x * rate, d * x, (1 - d) * x, pow(x, 2), sqrt(x), x + epsilon, x + y and x / y have
    the elements of the functions of [real_tensors]. *)
Theorem C65_operators : forall fresh use env lr d eps s (a b : tens R),
  let A := real_tensors lr d eps in let ev := eval Rnum fresh use env in
  fits s a -> length (snd a) = n_elems s -> fits s b -> length (snd b) = n_elems s ->
  (exists u, ev (EUn (UMulR lr) (EConst a)) = Ok u /\ same_elements u (scale_lr A a)) /\
  (exists u, ev (EUn (UMulL d) (EConst a)) = Ok u /\ same_elements u (scale_d A a)) /\
  (exists u, ev (EUn (UMulL (1 - d)) (EConst a)) = Ok u /\ same_elements u (scale_1d A a)) /\
  (exists u, ev (EUn (UPow 2) (EConst a)) = Ok u /\ same_elements u (square A a)) /\
  (exists u, ev (EUn USqrt (EConst a)) = Ok u /\ same_elements u (sqrt_ A a)) /\
  (exists u, ev (EUn (UAddR eps) (EConst a)) = Ok u /\ same_elements u (add_eps A a)) /\
  (exists u v, ev (EBin BAdd (EConst a) (EConst b)) = Ok u /\ add_ A a b = Some v /\ same_elements u v) /\
  (exists u v, ev (EBin BDiv (EConst a) (EConst b)) = Ok u /\ div_ A a b = Some v /\ same_elements u v).
Proof. exact C65_operators_lemma. Qed.
Print Assumptions C65_operators.
