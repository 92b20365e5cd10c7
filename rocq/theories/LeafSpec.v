(** What a user sees of a leaf, and the words used in the leaf theorems. *)
From Verif Require Import Common ShapeModel ShapeSpec TensorModel TensorSpec LeafModel.

Section S.
Context {T : Type}.
Implicit Types W : @lworld T.

(** eval() of node [i], then shape and exposed data: [None] when eval returns nullptr *)
Definition observe W (i : nat) : res (option (shape * list T)) :=
  e <- leaf_eval W i ;;
  match e with
  | None => Ok None
  | Some t => d <- t_expose (lheap W) t ;; Ok (Some (get_shape t, d))
  end.

(** node [i] exists and is of kind [k] *)
Definition has_kind W i (k : @kind T) : Prop := exists b, nth_error (l_fs W) i = Some (mkLeaf k b).
Definition is_const W i := has_kind W i KConst.
Definition is_place W i := has_kind W i KPlace.
Definition is_var W i := exists ini, has_kind W i (KVar ini).
(** eval() would not return nullptr *)
Definition initialized W i : Prop := exists k, nth_error (l_fs W) i = Some (mkLeaf k true).

(** get_shape() of node [i] *)
Definition shape_of W i (s : shape) : Prop := exists t, alive (l_w W) i t /\ get_shape t = s.

(** two worlds in which every node but [i] looks the same *)
Definition others_same W W' (i : nat) : Prop := forall k, k <> i -> k < length (l_fs W) -> observe W' k = observe W k.

(** elementwise combination *)
Definition zipw (f : T -> T -> T) (x y : list T) : list T := map (fun p => f (fst p) (snd p)) (combine x y).

(** the node an operation writes to *)
Definition writes W (o : @lop T) (k : nat) : Prop :=
  match o with
  | LFeed i _ | LInit i | LInitShape i _ => k = i
  | LFeedTensor i j => k = i \/ k = j
  | LRun u _ => match nth_error (l_us W) u with
                | Some (UData _ i _) | Some (UNode _ i _) => k = i
                | _ => False
                end
  | _ => False
  end.
End S.
