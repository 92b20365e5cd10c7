(** Specification vocabulary for elementwise operations. *)
From Verif Require Import Common ShapeSpec.

(** a one-element list stands for a list of any length *)
Definition broadcast {A} (n : nat) (l : list A) : list A :=
  match l with [x] => repeat x n | _ => l end.

Fixpoint map2 {A B C} (f : A -> B -> C) (l : list A) (r : list B) : list C :=
  match l, r with
  | x :: l', y :: r' => f x y :: map2 f l' r'
  | _, _ => []
  end.

(** the list without entry k *)
Definition remove_at {A} (k : nat) (l : list A) : list A := firstn k l ++ skipn (S k) l.

(** shapes that name the same layout: equal, or of different rank and equal up to ones at
    the ends *)
Definition same_layout (a b : list nat) : Prop :=
  a = b \/ (length a <> length b /\ unpad a = unpad b).

(** the shape with one axis taken out, as reduce_sum and friends produce it: an end axis is
    dropped, an inner one becomes 1 *)
Definition axis_removed (axis : nat) (s : list nat) : list nat :=
  if axis =? 0 then tl s else if axis =? length s - 1 then removelast s else set_nth axis 1 s.
