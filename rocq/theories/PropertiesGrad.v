(** Generated by tools/genprops.py from GradLaws.v: property statements only. *)
From Coq Require Import Reals ZArith Lra Lia.
From Verif Require Import Common ShapeModel ShapeSpec ShapeProofs TransformProofs ElemSpec ElemModel NumSpec ElemProofs RealNum ElemLaws GradModel GradSpec GradProofs.
Local Open Scope R_scope.
From Verif Require Import GradLaws.

(** The value of an elementwise expression, node by node, is the ordinary function it stands
    for, at every position. *)
Theorem C36_value :
  forall (fresh : nat -> R) (strassen_on : bool) (s : shape) (env : nat -> tens R) (e : expr),
    leaves_fit s env e ->
    exists t, eval Rnum fresh strassen_on env e = Ok t /\ fits s t /\
      forall i, (i < n_elems s)%nat -> at_ t i = den i (fun v => at_ (env v) i) e.
Proof. exact C36_value_lemma. Qed.
Print Assumptions C36_value.

(** The gradient with respect to variable w exists and evaluates, and at every position i its
    element is the derivative of the expression's element i with respect to the variable's
    element i (its only element, if it has one) at the variable's current value. *)
Theorem C36_gradient :
  forall (fresh : nat -> R) (strassen_on : bool) (same : expr -> expr -> bool), (forall a b, same a b = true -> a = b) ->
  forall (s : shape) (env : nat -> tens R) (w : nat) (e : expr),
    is_fully_defined s = true -> leaves_fit s env e -> fits s (env w) ->
    (forall i, (i < n_elems s)%nat -> regular i (fun v => at_ (env v) i) e) ->
    exists g t, derive Rnum fresh strassen_on same env w e = Ok g /\ eval Rnum fresh strassen_on env g = Ok t /\ fits s t /\
      forall i, (i < n_elems s)%nat ->
        (forall r, exists u, eval Rnum fresh strassen_on (set_elem env w i r) e = Ok u) /\
        derivable_pt_lim (fun r => elem (eval Rnum fresh strassen_on (set_elem env w i r) e) i) (at_ (env w) i) (at_ t i).
Proof. exact C36_gradient_lemma. Qed.
Print Assumptions C36_gradient.

(** The other partial derivatives vanish: changing the variable at another position does not
    change the element at position i at all. *)
Theorem C36_local :
  forall (fresh : nat -> R) (strassen_on : bool) (s : shape) (env : nat -> tens R) (w : nat) (e : expr) (i j : nat) (r : R),
    leaves_fit s env e -> fits s (env w) -> length (snd (env w)) <> 1%nat -> (i < n_elems s)%nat -> i <> j ->
    elem (eval Rnum fresh strassen_on (set_elem env w j r) e) i = elem (eval Rnum fresh strassen_on env e) i.
Proof. exact C36_local_lemma. Qed.
Print Assumptions C36_local.

(** A variable that does not occur, or a constant, has the constant gradient zero. *)
Theorem C36_absent :
  forall (fresh : nat -> R) (strassen_on : bool) (same : expr -> expr -> bool) (env : nat -> tens R) (w : nat) (e : expr),
    (exists s, leaves_fit s env e) -> has_leaf w e = false -> derive Rnum fresh strassen_on same env w e = Ok (EConst ([1%nat], [0])).
Proof. exact C36_absent_lemma. Qed.
Print Assumptions C36_absent.

(** Building an operation with the folding builders gives the same values as the operation. *)
Theorem C36_builders :
  forall (fresh : nat -> R) (strassen_on : bool) (same : expr -> expr -> bool), (forall a b, same a b = true -> a = b) ->
  forall (s : shape) (env : nat -> tens R) (a b : expr), is_fully_defined s = true -> leaves_fit s env a -> leaves_fit s env b ->
    (forall op, op <> UAbs -> (forall c, op = UDivL c -> forall i, (i < n_elems s)%nat -> den i (fun v => at_ (env v) i) a <> 0) -> (forall c, op = UDivR c -> c <> 0) ->
       exists e t, mk_unary Rnum op a = Ok e /\ eval Rnum fresh strassen_on env e = Ok t /\
         forall i, (i < n_elems s)%nat -> at_ t i = meaning Rnum op (elem (eval Rnum fresh strassen_on env a) i)) /\
    (forall op, (op = BDiv -> forall i, (i < n_elems s)%nat -> den i (fun v => at_ (env v) i) b <> 0) ->
       exists e t, mk_binary Rnum same op a b = Ok e /\ eval Rnum fresh strassen_on env e = Ok t /\
         forall i, (i < n_elems s)%nat -> at_ t i = bmeaning Rnum op (elem (eval Rnum fresh strassen_on env a) i) (elem (eval Rnum fresh strassen_on env b) i)).
Proof. exact C36_builders_lemma. Qed.
Print Assumptions C36_builders.

(** Findings. The gradient of unary plus is unary plus of the gradient, and unary plus of a
    constant is its absolute value: the gradient of +(-x) is +1, its derivative -1. *)
Theorem C36_plus_refuted :
  forall (fresh : nat -> R) (strassen_on : bool) (same : expr -> expr -> bool) (env : nat -> tens R) (x : R), env 0%nat = ([1%nat], [x]) ->
    let e := EUn UAbs (EUn UNeg (EVar 0)) in
    derive Rnum fresh strassen_on same env 0 e = Ok (EConst ([1%nat], [Rabs (- 1)])) /\ Rabs (- 1) = 1 /\
    derivable_pt_lim (fun r => elem (eval Rnum fresh strassen_on (set_elem env 0 0 r) e) 0) x (- 1).
Proof. exact C36_plus_refuted_lemma. Qed.
Print Assumptions C36_plus_refuted.

(** The gradient of clip_val multiplies by the clipped value instead of by one: inside the
    interval it is v times too large. *)
Theorem C36_clip_refuted :
  forall (fresh : nat -> R) (strassen_on : bool) (same : expr -> expr -> bool) (env : nat -> tens R) (x lo hi : R),
    env 0%nat = ([1%nat], [x]) -> (forall a b, same a b = true -> a = b) -> lo < x < hi -> 
    let e := EUn (UClip lo hi) (EVar 0) in
    (exists g t, derive Rnum fresh strassen_on same env 0 e = Ok g /\ eval Rnum fresh strassen_on env g = Ok t /\ at_ t 0 = x) /\
    derivable_pt_lim (fun r => elem (eval Rnum fresh strassen_on (set_elem env 0 0 r) e) 0) x 1.
Proof. exact C36_clip_refuted_lemma. Qed.
Print Assumptions C36_clip_refuted.

(** derive with respect to an operation node returns the expression with that node replaced
    by the constant one, not a derivative: for y^2 with respect to the node y it is 1
    whatever y is. *)
Theorem C36_derive_node_refuted :
  forall (fresh : nat -> R) (strassen_on : bool) (env : nat -> tens R) (is_target : expr -> bool) (y : expr),
    is_target (EUn (UPow 2) y) = false -> is_target y = true ->
    temp_eval Rnum is_target (EUn (UPow 2) y) = EUn (UPow 2) (EConst ([1%nat], [1])) /\
    eval Rnum fresh strassen_on env (temp_eval Rnum is_target (EUn (UPow 2) y)) = Ok ([1%nat], [1]) /\
    forall v, derivable_pt_lim (fun r => meaning Rnum (UPow 2) r) v (2 * v).
Proof. exact C36_derive_node_refuted_lemma. Qed.
Print Assumptions C36_derive_node_refuted.

(** the gradient of round is the rounded gradient, one for a variable, although round is
    locally constant away from the halves *)
Theorem C36_round_refuted :
  forall (fresh : nat -> R) (strassen_on : bool) (same : expr -> expr -> bool) (env : nat -> tens R), env 0%nat = ([1%nat], [0]) ->
    let e := EUn URound (EVar 0) in
    derive Rnum fresh strassen_on same env 0 e = Ok (EConst ([1%nat], [Rround 1])) /\ Rround 1 = 1 /\
    derivable_pt_lim (fun r => elem (eval Rnum fresh strassen_on (set_elem env 0 0 r) e) 0) 0 0.
Proof. exact C36_round_refuted_lemma. Qed.
Print Assumptions C36_round_refuted.

(** the hypotheses hold of (x*y + sin x)/(x - 2) on a 2-vector x and a scalar y *)
Example C36_nonvacuous :
  let env := fun v => match v with O => ([2%nat], [0; 1]) | _ => ([1%nat], [3]) end in
  let e := EBin BDiv (EBin BAdd (EBin BMul (EVar 0) (EVar 1)) (EUn USin (EVar 0))) (EUn (USubR 2) (EVar 0)) in
  is_fully_defined [2%nat] = true /\ leaves_fit [2%nat] env e /\ fits [2%nat] (env 0%nat) /\
  (forall i, (i < n_elems [2%nat])%nat -> regular i (fun v => at_ (env v) i) e) /\
  (forall a b : @expr R, (fun _ _ => false) a b = true -> a = b) /\
  exists g, derive Rnum (fun _ => 0) true (fun _ _ => false) env 0 e = Ok g /\ has_leaf 1 g = true.
Proof. exact C36_nonvacuous_lemma. Qed.
