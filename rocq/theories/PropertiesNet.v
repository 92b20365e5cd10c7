(** Generated by tools/genprops.py from NetLaws.v: property statements only. *)
From Coq Require Import String Reals Lra Lia ClassicalDescription.
From Verif Require Import Common ShapeModel ShapeProofs ShapeSpec TransformSpec TransformModel TransformProofs TransformLaws MatmulSpec MatmulModel ElemModel ElemProofs NumSpec RealNum ElemLaws GradModel GradSpec GradProofs GradLaws MatrixSpec MatrixProofs MlpModel MlpProofs MlpLaws CopyLaws NetSpec NetProofs NetMlpProofs NetSymProofs.
Local Open Scope list_scope.
Local Open Scope R_scope.
From Verif Require Import NetLaws.

(** The gradient of a matrix product with respect to a variable that is its first factor,
    whatever the transposition flags, is the derivative of the sum of its elements. *)
Theorem C37_matmul_left :
  forall fresh use same env (w : nat) (b : @expr R) (tA tB : bool) (c r z : nat),
    node_identity same ->
    matrix (if tA then r else z) (if tA then z else r) (env w) ->
    has_leaf w b = false -> factor fresh use env (if tB then z else c) (if tB then c else z) b ->
    exists y, sum_gradient fresh use same env w (mk_mat (EVar w) b tA tB) y.
Proof. exact C37_matmul_left_lemma. Qed.
Print Assumptions C37_matmul_left.

(** The same for the second factor. *)
Theorem C37_matmul_right :
  forall fresh use same env (w : nat) (a : @expr R) (tA tB : bool) (c r z : nat),
    node_identity same ->
    matrix (if tB then z else c) (if tB then c else z) (env w) ->
    has_leaf w a = false -> factor fresh use env (if tA then r else z) (if tA then z else r) a ->
    exists y, sum_gradient fresh use same env w (mk_mat a (EVar w) tA tB) y.
Proof. exact C37_matmul_right_lemma. Qed.
Print Assumptions C37_matmul_right.

(** Training a new mlp of any sizes and any batch: for every weight and bias, the gradient of
    the squared error node that gd_net differentiates exists, has the parameter's size, and
    each of its elements is the derivative of the summed error by that element of the
    parameter. *)
Theorem C37_training_gradient :
  forall fresh use same (of_nat : nat -> R) (env : nat -> tens R) (n r c : nat) (hs : list (nat * @act R)) scope st m st' train_in expected p,
    node_identity same ->
    (0 < n)%nat -> (0 < r)%nat -> Forall (fun h => (0 < fst h)%nat /\ smooth_act same (snd h)) hs ->
    mlp_new Rnum of_nat n hs scope st = (m, st') -> m_nout m = Some c ->
    (forall q, In q (mlp_variables m) -> initialized env st' q) ->
    matrix n r (env train_in) -> fst (env train_in) = [n; r] -> matrix c r (env expected) ->
    ~ In train_in (mlp_variables m) -> ~ In expected (mlp_variables m) ->
    In p (mlp_variables m) ->
    exists E y, gd_error Rnum same (CMlp m) train_in expected [n; r] = Ok E /\ sum_gradient fresh use same env p E y.
Proof. exact C37_training_gradient_lemma. Qed.
Print Assumptions C37_training_gradient.

(** reduce_sum: the value is the sum of all elements, and the gradient of the sum is that of
    its argument, whatever the argument. *)
Theorem C37_reduce_sum :
  (forall fresh use env (a : @expr R) t, eval Rnum fresh use env a = Ok t ->
    is_fully_defined (fst t) = true -> length (snd t) = n_elems (fst t) ->
    eval Rnum fresh use env (ESum a) = Ok ([1%nat], [total (Ok t)])) /\
  (forall fresh use same env w (a : @expr R), has_leaf w a = true ->
    derive Rnum fresh use same env w (ESum a) = derive Rnum fresh use same env w a).
Proof. exact C37_reduce_sum_lemma. Qed.
Print Assumptions C37_reduce_sum.

(** Sums of elementwise expressions: the gradient with respect to a variable of the full shape
    (the expression depends on every position of it) is, element by element, the derivative
    of the sum. *)
Theorem C37_sum_elementwise :
  forall fresh use same, (forall a b, same a b = true -> a = b) ->
  forall (s : shape) (env : nat -> tens R) (w : nat) (e : expr),
    is_fully_defined s = true -> leaves_fit s env e -> has_leaf w e = true -> fst (env w) = s -> length (snd (env w)) = n_elems s ->
    (forall i, (i < n_elems s)%nat -> regular i (fun v => at_ (env v) i) e) ->
    exists Y y, derive Rnum fresh use same env w (ESum e) = Ok Y /\ eval Rnum fresh use env Y = Ok y /\ fits s y /\
      forall k, (k < n_elems s)%nat ->
        derivable_pt_lim (fun x => sumR (fun i => elem (eval Rnum fresh use (set_elem env w k x) e) i) (n_elems s)) (at_ (env w) k) (at_ y k).
Proof. exact C37_sum_elementwise_lemma. Qed.
Print Assumptions C37_sum_elementwise.

(** A one-element variable that is broadcast: the gradient is not summed. The derivative of
    the sum of x * v is the sum of v's elements, but derive returns v itself, which has more
    elements than the variable. *)
Theorem C37_broadcast_refuted :
  forall fresh use same env x a b, node_identity same -> env 0%nat = ([1%nat], [x]) -> env 1%nat = ([2%nat], [a; b]) ->
    let e := ESum (EBin BMul (EVar 0) (EVar 1)) in
    derive Rnum fresh use same env 0 e = Ok (EVar 1) /\
    derivable_pt_lim (fun r => total (eval Rnum fresh use (set_elem env 0 0 r) e)) x (a + b).
Proof. exact C37_broadcast_refuted_lemma. Qed.
Print Assumptions C37_broadcast_refuted.

(** reduce_max: derive returns the constant 1 whatever the values; the derivative by an
    element that is not the largest is 0. *)
Theorem C37_reduce_max_refuted :
  forall fresh use same env a b, node_identity same -> env 0%nat = ([2%nat], [a; b]) -> a < b ->
    let e := EMax (EVar 0) in
    derive Rnum fresh use same env 0 e = Ok (EConst ([1%nat], [1])) /\
    derivable_pt_lim (fun r => total (eval Rnum fresh use (set_elem env 0 0 r) e)) a 0.
Proof. exact C37_reduce_max_refuted_lemma. Qed.
Print Assumptions C37_reduce_max_refuted.

(** A bias whose sum is differentiated directly (without an elementwise function in between,
    as in a last layer without activation): derive returns one element 1, the derivative by
    each element is the number of rows. *)
Theorem C37_bias_sum_refuted :
  forall fresh use same env a b x y u v, node_identity same -> env 0%nat = ([2%nat], [a; b]) -> env 1%nat = ([2%nat; 2%nat], [x; y; u; v]) ->
    let e := ESum (EAxB 1 (EVar 1) (EVar 0)) in
    (exists Y, derive Rnum fresh use same env 0 e = Ok Y /\ eval Rnum fresh use env Y = Ok ([1%nat], [1])) /\
    derivable_pt_lim (fun r => total (eval Rnum fresh use (set_elem env 0 0 r) e)) a 2 /\
    derivable_pt_lim (fun r => total (eval Rnum fresh use (set_elem env 0 1 r) e)) b 2.
Proof. exact C37_bias_sum_refuted_lemma. Qed.
Print Assumptions C37_bias_sum_refuted.

(** exp(x) / reduce_sum(exp(x)), the softmax function: its elements always sum to 1, so the
    derivative of the sum is 0, but derive returns positive elements: it treats the divisor
    as if each position had its own. *)
Theorem C37_softmax_refuted :
  forall fresh use same env x y, node_identity same -> env 0%nat = ([2%nat], [x; y]) ->
    let e := ESum (EBin BDiv (EUn UExp (EVar 0)) (ESum (EUn UExp (EVar 0)))) in
    (exists Y p q, derive Rnum fresh use same env 0 e = Ok Y /\ eval Rnum fresh use env Y = Ok ([2%nat], [p; q]) /\ 0 < p /\ 0 < q) /\
    derivable_pt_lim (fun r => total (eval Rnum fresh use (set_elem env 0 0 r) e)) x 0 /\
    derivable_pt_lim (fun r => total (eval Rnum fresh use (set_elem env 0 1 r) e)) y 0.
Proof. exact C37_softmax_refuted_lemma. Qed.
Print Assumptions C37_softmax_refuted.

(** A product used both directly and as a factor of another product (z + matmul(z, v)): only
    the first use's list of pending products is kept, so the second one is differentiated as
    if it were the first: derive returns 2 a where the derivative is a (1 + v). *)
Theorem C37_skip_refuted :
  forall fresh use same env x a v, node_identity same ->
    env 0%nat = ([1; 1]%nat, [x]) -> env 1%nat = ([1; 1]%nat, [a]) -> env 2%nat = ([1; 1]%nat, [v]) ->
    let z := mk_mat (EVar 0) (EVar 1) false false in
    let e := ESum (EBin BAdd z (mk_mat z (EVar 2) false false)) in
    (exists Y, derive Rnum fresh use same env 0 e = Ok Y /\ eval Rnum fresh use env Y = Ok ([1; 1]%nat, [2 * a])) /\
    derivable_pt_lim (fun r => total (eval Rnum fresh use (set_elem env 0 0 r) e)) x (a * (1 + v)).
Proof. exact C37_skip_refuted_lemma. Qed.
Print Assumptions C37_skip_refuted.

(** A bias that is itself a product (add_axial_b(x, matmul(p, q))): the pending product is
    applied before the sum over the rows, so that its arguments do not fit and derive throws,
    although the sum has the derivative p e^(x + p q) + p e^(y + p q). *)
Theorem C37_bias_product_refuted :
  forall fresh use same env q x y p, node_identity same ->
    env 0%nat = ([1; 1]%nat, [q]) -> env 1%nat = ([1; 2]%nat, [x; y]) -> env 2%nat = ([1; 1]%nat, [p]) ->
    let e := ESum (EUn UExp (EAxB 1 (EVar 1) (mk_mat (EVar 2) (EVar 0) false false))) in
    derive Rnum fresh use same env 0 e = Throw /\
    derivable_pt_lim (fun r => total (eval Rnum fresh use (set_elem env 0 0 r) e)) q (p * exp (x + p * q) + p * exp (y + p * q)).
Proof. exact C37_bias_product_refuted_lemma. Qed.
Print Assumptions C37_bias_product_refuted.

(** A factor transposed with the transpose function instead of the flag: the gradient has the
    transposed order. For matmul(x, transpose(w)) with a row x = (x, y), derive returns
    x, x, y, y for the elements of w, the derivatives are x, y, x, y. *)
Theorem C37_explicit_transpose_refuted :
  forall fresh use same env a b c d x y, node_identity same ->
    env 0%nat = ([2; 2]%nat, [a; b; c; d]) -> env 1%nat = ([2; 1]%nat, [x; y]) ->
    let e := ESum (mk_mat (EVar 1) (mk_tr (EVar 0)) false false) in
    (exists Y, derive Rnum fresh use same env 0 e = Ok Y /\ eval Rnum fresh use env Y = Ok ([2; 2]%nat, [x; x; y; y])) /\
    derivable_pt_lim (fun r => total (eval Rnum fresh use (set_elem env 0 1 r) e)) b y /\
    derivable_pt_lim (fun r => total (eval Rnum fresh use (set_elem env 0 2 r) e)) c x.
Proof. exact C37_explicit_transpose_refuted_lemma. Qed.
Print Assumptions C37_explicit_transpose_refuted.

(** the hypotheses hold for a net of two inputs with layers of 3 and 2 outputs (sigmoid and
    tanh), a batch of two rows, and each of its parameters *)
Example C37_nonvacuous :
  let hs := [(3%nat, mk_sigmoid Rnum); (2%nat, mk_tanh Rnum same_tree)] in
  let '(m, st) := mlp_new Rnum INR 2 hs "net"%string [] in
  let env := fun v => match v with
    | 0%nat => ([3; 2]%nat, [1; 2; 3; 4; 5; 6]) | 1%nat => ([3%nat], [10; 20; 30])
    | 2%nat => ([2; 3]%nat, [1; -1; 2; 0; 0; 1]) | 3%nat => ([2%nat], [5; 7]) | _ => ([2; 2]%nat, [1; 2; 3; 4]) end in
  node_identity same_tree /\ Forall (fun h => (0 < fst h)%nat /\ smooth_act same_tree (snd h)) hs /\
  m_nout m = Some 2%nat /\ mlp_variables m = [0; 1; 2; 3]%nat /\ (forall q, In q (mlp_variables m) -> initialized env st q) /\
  matrix 2 2 (env 4%nat) /\ matrix 2 2 (env 5%nat) /\ ~ In 4%nat (mlp_variables m) /\ ~ In 5%nat (mlp_variables m) /\
  forall p, In p (mlp_variables m) -> exists E y, gd_error Rnum same_tree (CMlp m) 4 5 [2; 2]%nat = Ok E /\
    sum_gradient (fun _ => 77) true same_tree env p E y.
Proof. exact C37_nonvacuous_lemma. Qed.
