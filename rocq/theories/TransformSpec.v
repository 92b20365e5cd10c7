(** Specification vocabulary for the shape-changing operations. *)
From Verif Require Import Common ShapeSpec.

(** position k after exchanging positions i and j *)
Definition swapped (i j k : nat) : nat := if k =? i then j else if k =? j then i else k.

(** a list with entries i and j exchanged *)
Definition swapc (i j : nat) (c : list nat) : list nat :=
  map (fun k => nth (swapped i j k) c 0) (seq 0 (length c)).

(** a coordinate mirrored in every axis that is listed an odd number of times *)
Definition mirror (s dims c : list nat) : list nat :=
  map (fun k => if Nat.odd (count_occ Nat.eq_dec dims k) then nth k s 0 - nth k c 0 - 1 else nth k c 0)
      (seq 0 (length c)).

(** the argument elements met when axis idx of coordinate c runs through its dimension *)
Definition along {T} (d0 : T) (s : list nat) (src : list T) (idx : nat) (c : list nat) : list T :=
  map (fun j => nth (offset s (set_nth idx j c)) src d0) (seq 0 (nth idx s 0)).

(** left fold of a non-empty list starting from its first element *)
Definition fold1 {T} (f : T -> T -> T) (d0 : T) (l : list T) : T :=
  match l with [] => d0 | x :: xs => fold_left f xs x end.

(** [lt] is a strict total order as std::max_element needs (asymmetric, and "not less" is
    transitive) *)
Definition strict_order {T} (lt : T -> T -> bool) : Prop :=
  (forall x, lt x x = false) /\
  (forall x y, lt x y = true -> lt y x = false) /\
  (forall x y z, lt x y = false -> lt y z = false -> lt x z = false).

(** k is the first position of a maximum of l *)
Definition first_max {T} (lt : T -> T -> bool) (d0 : T) (l : list T) (k : nat) : Prop :=
  k < length l /\
  (forall j, j < length l -> lt (nth k l d0) (nth j l d0) = false) /\
  (forall j, j < k -> lt (nth j l d0) (nth k l d0) = true).
