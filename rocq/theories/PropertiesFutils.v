(** Generated by tools/genprops.py from FutilsLaws.v: property statements only. *)
From Coq Require Import Reals ZArith Lra.
From Verif Require Import Common ShapeModel ShapeSpec ShapeProofs TransformSpec TransformModel TransformProofs TransformLaws ElemSpec ElemModel NumSpec ElemProofs RealNum ElemLaws FutilsModel.
Local Open Scope R_scope.
From Verif Require Import FutilsLaws.

(** sigmoid of any tensor (constant or not): one result element 1/(1+e^-v) per element v, all
    strictly between zero and one; the shape is kept (one-element shapes may become [1]). *)
Theorem C39_sigmoid :
  forall (fresh : nat -> R) (x : node) (s : shape) (data : list R),
    value Rnum x = (s, data) -> is_fully_defined s = true -> length data = n_elems s ->
    exists s' d, sigmoid Rnum fresh x = Ok (s', d) /\ n_elems s' = n_elems s /\ (n_elems s <> 1%nat -> s' = s) /\ length d = length data /\
      forall i v, nth_error data i = Some v -> exists y, nth_error d i = Some y /\ y = 1 / (1 + exp (- v)) /\ 0 < y < 1.
Proof. exact C39_sigmoid_lemma. Qed.
Print Assumptions C39_sigmoid.

(** sigmoid of the negated tensor is one minus sigmoid, and sigmoid preserves strict order *)
Theorem C39_sigmoid_symmetry :
  forall (fresh : nat -> R) (x x' : node) (s s' : shape) (data data' : list R) (r r' : tens R),
    value Rnum x = (s, data) -> is_fully_defined s = true -> length data = n_elems s ->
    value Rnum x' = (s', data') -> is_fully_defined s' = true -> length data' = n_elems s' ->
    sigmoid Rnum fresh x = Ok r -> sigmoid Rnum fresh x' = Ok r' ->
    (forall i v, nth_error data i = Some v -> nth_error data' i = Some (- v) ->
       exists y y', nth_error (snd r) i = Some y /\ nth_error (snd r') i = Some y' /\ y' = 1 - y) /\
    (forall i j v w, nth_error data i = Some v -> nth_error data' j = Some w -> v < w ->
       exists y y', nth_error (snd r) i = Some y /\ nth_error (snd r') j = Some y' /\ y < y').
Proof. exact C39_sigmoid_symmetry_lemma. Qed.
Print Assumptions C39_sigmoid_symmetry.

(** tanh of any tensor: the hyperbolic tangent of each element, strictly between -1 and 1 *)
Theorem C39_tanh :
  forall (fresh : nat -> R) (x : node) (s : shape) (data : list R),
    value Rnum x = (s, data) -> is_fully_defined s = true -> length data = n_elems s ->
    exists s' d, tanh Rnum fresh x = Ok (s', d) /\ n_elems s' = n_elems s /\ (n_elems s <> 1%nat -> s' = s) /\ length d = length data /\
      forall i v, nth_error data i = Some v -> exists y, nth_error d i = Some y /\
        y = (exp v - exp (- v)) / (exp v + exp (- v)) /\ -1 < y < 1.
Proof. exact C39_tanh_lemma. Qed.
Print Assumptions C39_tanh.

(** softmax of any tensor: each element is e^v over the sum of e^w over the whole tensor, is
    positive, and all of them together sum to one *)
Theorem C39_softmax :
  forall (fresh : nat -> R) (x : node) (s : shape) (data : list R),
    value Rnum x = (s, data) -> is_fully_defined s = true -> length data = n_elems s ->
    exists s' d, softmax Rnum fresh x = Ok (s', d) /\ n_elems s' = n_elems s /\ (n_elems s <> 1%nat -> s' = s) /\ length d = length data /\
      (forall i v, nth_error data i = Some v -> exists y, nth_error d i = Some y /\
        y = exp v / fold_right Rplus 0 (map exp data) /\ 0 < y) /\
      fold_right Rplus 0 d = 1.
Proof. exact C39_softmax_lemma. Qed.
Print Assumptions C39_softmax.

(** Finding: the sum runs over the whole tensor, so for a batch (shape [n; m] with m > 1, one
    sample per column, stored column after column) no single sample's entries sum to one:
    every proper part of the result sums to less. *)
Theorem C39_softmax_batch_refuted :
  forall (fresh : nat -> R) (x : node) (n m : nat) (data : list R),
    value Rnum x = ([n; m], data) -> (0 < n)%nat -> (1 < m)%nat -> length data = (n * m)%nat ->
    exists d, softmax Rnum fresh x = Ok ([n; m], d) /\ length d = (n * m)%nat /\
      forall c, (c < m)%nat -> fold_right Rplus 0 (firstn n (skipn (c * n) d)) < 1.
Proof. exact C39_softmax_batch_refuted_lemma. Qed.
Print Assumptions C39_softmax_batch_refuted.

(** adding the same number to every element does not change softmax *)
Theorem C39_softmax_shift :
  forall (fresh : nat -> R) (x x' : node) (s : shape) (data : list R) (c : R),
    value Rnum x = (s, data) -> value Rnum x' = (s, map (fun v => v + c) data) -> is_fully_defined s = true -> length data = n_elems s ->
    exists s1 s2 d, softmax Rnum fresh x = Ok (s1, d) /\ softmax Rnum fresh x' = Ok (s2, d).
Proof. exact C39_softmax_shift_lemma. Qed.
Print Assumptions C39_softmax_shift.

(** the hypotheses hold of a constant, a variable and a negated node *)
Example C39_nonvacuous :
  let t := ([2%nat; 2%nat], [0; 1; -1; 3]) in
  value Rnum (NConst t) = t /\ value Rnum (NOther t) = t /\ value Rnum (NNeg t) = ([2%nat; 2%nat], [- 0; - 1; - -1; - 3]) /\
  is_fully_defined (fst t) = true /\ length (snd t) = n_elems (fst t) /\
  exists d, softmax Rnum (fun _ => 0) (NOther ([2%nat], [0; 0])) = Ok ([2%nat], d) /\ nth_error d 0 = Some (1 / (1 + (1 + 0))).
Proof. exact C39_nonvacuous_lemma. Qed.
