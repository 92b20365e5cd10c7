(** The words used in the theorems about moving and assigning placeholders and variables. *)
From Verif Require Import Common ShapeModel TensorModel LeafModel LeafSpec LeafMoveModel.

Section S.
Context {T : Type}.
Implicit Types M : @mworld T.

(** eval() of node [i], then shape and exposed data: [None] when eval returns nullptr *)
Definition mobserve M (i : nat) : res (option (shape * list T)) :=
  e <- mleaf_eval M i ;;
  match e with
  | None => Ok None
  | Some t => d <- t_expose (lheap (m_w M)) t ;; Ok (Some (get_shape t, d))
  end.

(** the kind of the node: placeholder, or variable with its initializer *)
Definition mkind M i (k : @kind T) : Prop := has_kind (m_w M) i k.
Definition mplace M i : Prop := mkind M i KPlace.
Definition mvar M i : Prop := exists ini, mkind M i (KVar ini).
(** everything a user sees of node [i] of M' is what he saw of node [j] of M *)
Definition looks_like M' i M j : Prop :=
  mobserve M' i = mobserve M j /\ mget_shape M' i = mget_shape M j /\ good_status M' i = good_status M j /\
  (forall k, mkind M' i k <-> mkind M j k).

(** the nodes an operation changes *)
Definition changes M (o : @mop T) (k : nat) : Prop :=
  match o with
  | MOp o => writes (m_w M) o k
  | MMove i => k = i
  | MMoveAssign i j => k = i \/ k = j
  | MCopyAssign i _ => k = i
  end.
End S.
