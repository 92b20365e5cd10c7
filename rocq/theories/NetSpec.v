(** Networks whose gradients are claimed to be right. *)
From Coq Require Import Reals.
From Verif Require Import Common ShapeModel ElemModel RealNum GradModel MlpModel.
Local Open Scope R_scope.

(** sum of all elements of the value of a node *)
Definition total (r : res (tens R)) : R := match r with Ok t => fold_right Rplus 0 (snd t) | _ => 0 end.

(** operations that are smooth everywhere and do not forget their argument *)
Definition unit_op (op : @uop R) : Prop :=
  match op with
  | UNeg | USin | UCos | UExp | UAddL _ | UAddR _ | USubL _ | USubR _ => True
  | UMulL c | UMulR c | UDivR c => c <> 0
  | _ => False
  end.

(** activation functions: nothing, sigmoid, tanh, the operations above, and any of them one
    after the other *)
Inductive smooth_act (same : @expr R -> @expr R -> bool) : @act R -> Prop :=
| act_id : smooth_act same mk_id
| act_sigmoid : smooth_act same (mk_sigmoid Rnum)
| act_tanh : smooth_act same (mk_tanh Rnum same)
| act_unary op : unit_op op -> smooth_act same (mk_unary Rnum op)
| act_then f g : smooth_act same f -> smooth_act same g -> smooth_act same (fun x => y <- f x ;; g y).

(** pointer comparison of nodes: never identifies different nodes, and knows that a product
    or bias node is itself *)
Definition node_identity (same : @expr R -> @expr R -> bool) : Prop :=
  (forall a b, same a b = true -> a = b) /\
  (forall tA tB a b, same (EMat tA tB a b) (EMat tA tB a b) = true) /\
  (forall axis a b, same (EAxB axis a b) (EAxB axis a b) = true).
