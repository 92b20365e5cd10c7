(** Generated by tools/genprops.py from TrainLaws.v: property statements only. *)
From Coq Require Import String Reals Lra Lia FunctionalExtensionality Permutation.
From Verif Require Import Common ShapeModel ShapeProofs ElemModel ElemProofs NumSpec RealNum GradModel GradSpec GradProofs MatrixSpec MlpModel MlpLaws NetSpec NetMlpProofs NetLaws EvalModel EvalSpec EvalProofs EvalLaws UpdaterModel UpdaterSpec UpdaterLaws TrainModel TrainSpec TrainProofs TrainSymProofs.
Local Open Scope R_scope.
From Verif Require Import TrainLaws.

(** Training a new mlp of any sizes with a batch of any size is gradient descent. The graph
    may have been used in any way before; its leaves [loc v] hold the variables and
    placeholders; every parameter has exactly one update, whose node is the one the vanilla
    updater builds: the gradient of the squared error times the learning rate. If train
    returns, every parameter has kept its shape and each of its elements has been decreased by
    the learning rate times the derivative of the summed squared error by that element, at the
    inputs given and the parameters before the call. Other variables are left alone. *)
Theorem C51_gradient_descent :
  forall fresh use same of_nat (n r c : nat) (hs : list (nat * @act R)) scope st m st' compat ord top A lr loc s train_in expected x y error updates s' E,
    node_identity same -> valid_order ord -> valid_top top -> (forall a b, sub_ A a b = tensor_sub a b) -> 0 < lr ->
    (0 < n)%nat -> (0 < r)%nat -> Forall (fun h => (0 < fst h)%nat /\ smooth_act same (snd h)) hs ->
    mlp_new Rnum of_nat n hs scope st = (m, st') -> m_nout m = Some c ->
    let env := fed_env loc s train_in expected x y in
    (forall q, In q (mlp_variables m) -> initialized env st' q) ->
    matrix n r x -> fst x = [n; r] -> matrix c r y ->
    train_in <> expected -> ~ In train_in (mlp_variables m) -> ~ In expected (mlp_variables m) ->
    gd_error Rnum same (CMlp m) train_in expected [n; r] = Ok E ->
    history compat ord top s -> (forall u v, loc u = loc v -> u = v) -> (forall v, is_op (nodes s) (loc v) = false) ->
    NoDup (map fst updates) -> (forall p, In p (mlp_variables m) -> In (loc p) (map fst updates)) ->
    (forall w k, In (w, k) updates -> connected s k error /\
       exists p Y Z, In p (mlp_variables m) /\ w = loc p /\ derive Rnum fresh use same env p E = Ok Y /\ mk_unary Rnum (UMulR lr) Y = Ok Z /\ shows Rnum fresh use loc s k Z) ->
    net_train compat ord top A s (loc train_in) (loc expected) error updates x y = Done s' tt ->
    (forall p, In p (mlp_variables m) -> exists old new, val s (loc p) = Some old /\ val s' (loc p) = Some new /\
       fst new = fst old /\ length (snd new) = length (snd old) /\
       forall k, (k < length (snd old))%nat -> exists D,
         derivable_pt_lim (fun v => total (eval Rnum fresh use (set_elem env p k v) E)) (at_ old k) D /\
         at_ new k = at_ old k - lr * D) /\
    (forall v, leaf s (loc v) -> ~ In v (mlp_variables m) -> v <> train_in -> v <> expected -> val s' (loc v) = val s (loc v)).
Proof. exact C51_gradient_descent_lemma. Qed.
Print Assumptions C51_gradient_descent.

(** Calling the net. The graph may have been used in any way before, training included; node
    [test_out], not frozen, is the root of the net's output for the test placeholder. If the
    call returns a value, it is the value of that expression for the given input and the
    parameters as they are, and no variable but the placeholder changes. *)
Theorem C51_call :
  forall fresh use same brain compat ord top loc s test_in test_out shape x t s' E,
    valid_order ord -> valid_top top -> history compat ord top s -> is_frozen s test_out = false ->
    (forall u v, loc u = loc v -> u = v) -> (forall v, is_op (nodes s) (loc v) = false) ->
    gd_output Rnum same brain test_in shape = Ok E -> shows Rnum fresh use loc s test_out E ->
    net_call compat ord top s (loc test_in) test_out x = Done s' (Some t) ->
    eval Rnum fresh use (fun v => if v =? test_in then x else leaf_env loc s v)%nat E = Ok t /\
    history compat ord top s' /\ nodes s' = nodes s /\ val s' (loc test_in) = Some x /\
    forall v, leaf s v -> v <> loc test_in -> val s' v = val s v.
Proof. exact C51_call_lemma. Qed.
Print Assumptions C51_call.

(** The net of one input, one output and no activation function, weight 3 and bias 1, learning
    rate 1/4: training on input 2 and expected output 5 - the output is 7, the squared error 4,
    its derivatives by weight and bias 8 and 4 - makes the weight 1 and the bias 0. All
    hypotheses of C51_gradient_descent hold. *)
Example C51_nonvacuous : forall fresh use, exists (m : @mlp R) st (s s' : estate (tens R)) A E,
  let loc := small_loc in let x := ([1; 1]%nat, [2]) in let y := ([1; 1]%nat, [5]) in
  let env := fed_env loc s 2 3 x y in let updates := [(0, 14); (1, 17)]%nat in
  node_identity same_tree /\ valid_order (@audience (tens R)) /\ valid_top (@least (tens R)) /\ (forall a b, sub_ A a b = tensor_sub a b) /\
  Forall (fun h => (0 < fst h)%nat /\ smooth_act same_tree (snd h)) [(1%nat, mk_id)] /\
  mlp_new Rnum INR 1 [(1%nat, mk_id)] "net"%string [] = (m, st) /\ m_nout m = Some 1%nat /\
  (forall q, In q (mlp_variables m) -> initialized env st q) /\
  matrix 1 1 x /\ matrix 1 1 y /\ ~ In 2%nat (mlp_variables m) /\ ~ In 3%nat (mlp_variables m) /\
  gd_error Rnum same_tree (CMlp m) 2 3 [1; 1]%nat = Ok E /\
  history (fun _ _ => true) audience least s /\ (forall u v, loc u = loc v -> u = v) /\ (forall v, is_op (nodes s) (loc v) = false) /\
  NoDup (map fst updates) /\ (forall p, In p (mlp_variables m) -> In (loc p) (map fst updates)) /\
  (forall w k, In (w, k) updates -> connected s k 7 /\
     exists p Y Z, In p (mlp_variables m) /\ w = loc p /\ derive Rnum fresh use same_tree env p E = Ok Y /\ mk_unary Rnum (UMulR (1 / 4)) Y = Ok Z /\ shows Rnum fresh use loc s k Z) /\
  net_train (fun _ _ => true) audience least A s (loc 2%nat) (loc 3%nat) 7 updates x y = Done s' tt /\
  val s 0 = Some ([1; 1]%nat, [3]) /\ val s 1 = Some ([1]%nat, [1]) /\
  val s' 0 = Some ([1; 1]%nat, [1]) /\ val s' 1 = Some ([1]%nat, [0]).
Proof. exact C51_nonvacuous_lemma. Qed.
