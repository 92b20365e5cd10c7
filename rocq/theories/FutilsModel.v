(** Model of app/tenncor/src/utils/futils.ipp: sigmoid, tanh and softmax, composed from the
    builders of elementary.ipp (ElemModel) and reduce_sum (TransformModel). *)
From Verif Require Import Common ShapeModel TransformModel ElemModel.

Section Futils.
Context {T : Type} (N : num T) (fresh : nat -> T).

(** the node a builder returned, as argument of the next one: the builders used here return
    a constant exactly for a constant argument. A result that is a "neg" node is passed on
    as an ordinary node: no builder it is passed to here treats it specially. *)
Definition returned (a : @node T) (t : tens T) : node := if is_const a then NConst t else NOther t.

(** futils.ipp:10-14 [(T)1 / ((T)1 + exp(-x))] *)
Definition sigmoid (x : node) : res (tens T) :=
  v1 <- build_unary N fresh UNeg x ;;
  v2 <- build_unary N fresh UExp (returned x v1) ;;
  v3 <- build_unary N fresh (UAddL (n_one N)) (returned x v2) ;;
  build_unary N fresh (UDivL (n_one N)) (returned x v3).

(** futils.ipp:16-21 [etx = exp((T) 2 * x); (etx - (T) 1) / (etx + (T) 1)] *)
Definition tanh (x : node) : res (tens T) :=
  v1 <- build_unary N fresh (UMulL (n_two N)) x ;;
  etx <- build_unary N fresh UExp (returned x v1) ;;
  v2 <- build_unary N fresh (USubR (n_one N)) (returned x etx) ;;
  v3 <- build_unary N fresh (UAddR (n_one N)) (returned x etx) ;;
  binary_op N fresh BDiv false (returned x v2) (returned x v3).

(** transform.ipp:193-318, 320-328: reduce_sum without an axis; always a node, also for a
    constant argument *)
Definition reduce_sum_all (a : node) : res (tens T) :=
  forward_pass fresh (fun shapes => s <- rd shapes 0 ;; Ok (compress_all_shape s))
    (fun outs ins srcs dest => i <- rd ins 0 ;; s <- rd srcs 0 ;; compress_all_fwd (n_add N) i s dest) [value N a] None.

(** futils.ipp:23-28 [e = exp(x); e / reduce_sum(e)]; the sum has no axis, so it carries no
    "grouping" and operator / takes the elementwise path (elementary.ipp:1829-1860) *)
Definition softmax (x : node) : res (tens T) :=
  e <- build_unary N fresh UExp x ;;
  sum <- reduce_sum_all (returned x e) ;;
  binary_op N fresh BDiv false (returned x e) (NOther sum).
End Futils.
