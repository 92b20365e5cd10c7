(** Generated by tools/genprops.py from ElemLaws.v: property statements only. *)
From Coq Require Import Reals ZArith Lra.
From Verif Require Import Common ShapeModel ShapeSpec ShapeProofs FitModel TransformModel TransformProofs ElemSpec ElemModel NumSpec ElemProofs RealNum.
From Verif Require Import ElemLaws.

(** A unary operation: one element per argument element, in place, shape kept (a one-element
    argument gives shape [1]); whatever the destination held before is irrelevant, both for
    the first evaluation and for a later one into the same tensor. *)
Theorem C23_unary_pointwise :
  forall (T : Type) (fresh : nat -> T) (f : T -> T) (s : shape) (data : list T),
    is_fully_defined s = true -> length data = n_elems s ->
    let outs := if n_elems s =? 1 then [1] else s in
    forward_pass fresh elementary_shaper (transform_fwd f) [(s, data)] None = Ok (outs, map f data) /\
    forall old, length old = n_elems outs ->
      forward_pass fresh elementary_shaper (transform_fwd f) [(s, data)] (Some (outs, old)) = Ok (outs, map f data).
Proof. exact C23_unary_pointwise_lemma. Qed.
Print Assumptions C23_unary_pointwise.

(** A binary operation on arguments of one layout, or with a one-element argument: the result
    has the shape of the last argument with more than one element, and element i is the
    function of the two elements i, a one-element argument being used for every i. *)
Theorem C23_binary_pointwise :
  forall (T : Type) (fresh : nat -> T) (f : T -> T -> T) (sa sb : shape) (a b : list T),
    is_fully_defined sa = true -> is_fully_defined sb = true -> length a = n_elems sa -> length b = n_elems sb ->
    length a = 1 \/ length b = 1 \/ same_layout sa sb ->
    let outs := if length b =? 1 then if length a =? 1 then [1] else sa else sb in
    exists d, (forall old, old = None \/ (exists o, old = Some (outs, o) /\ length o = n_elems outs) ->
        forward_pass fresh elementary_shaper (binary_elem f) [(sa, a); (sb, b)] old = Ok (outs, d)) /\
      length d = n_elems outs /\ n_elems outs = Nat.max (length a) (length b) /\
      forall i, i < n_elems outs -> exists x y,
        nth_error a (if length a =? 1 then 0 else i) = Some x /\
        nth_error b (if length b =? 1 then 0 else i) = Some y /\ nth_error d i = Some (f x y).
Proof. exact C23_binary_pointwise_lemma. Qed.
Print Assumptions C23_binary_pointwise.

(** Arguments of different layouts, both with more than one element, throw. *)
Theorem C23_binary_incompatible :
  forall (T : Type) (fresh : nat -> T) (f : T -> T -> T) (sa sb : shape) (a b : list T) old,
    is_fully_defined sa = true -> is_fully_defined sb = true -> n_elems sa <> 1 -> n_elems sb <> 1 -> ~ same_layout sa sb ->
    forward_pass fresh elementary_shaper (binary_elem f) [(sa, a); (sb, b)] old = Throw.
Proof. exact C23_binary_incompatible_lemma. Qed.
Print Assumptions C23_binary_incompatible.

Example C23_nonvacuous :
  forward_pass (fun _ => 0%Z) elementary_shaper (binary_elem Z.sub) [([2; 2], [5; 6; 7; 8]%Z); ([1], [1%Z])] None = Ok ([2; 2], [4; 5; 6; 7]%Z) /\
  same_layout [2; 3] [1; 2; 3] /\ ~ same_layout [2; 3] [3; 2] /\
  forward_pass (fun _ => 0%Z) elementary_shaper (binary_elem Z.sub) [([2; 3], repeat 1%Z 6); ([3; 2], repeat 1%Z 6)] None = Throw.
Proof. exact C23_nonvacuous_lemma. Qed.

(** An axial operation with the smaller argument on the left or on the right: for a larger
    argument of rank two or more and a smaller one whose shape is that of the larger with one
    axis taken out (and neither of one element), the result has the larger shape and the
    element at coordinate c combines the larger argument at c with the smaller at c without
    that axis, in the order the arguments were given. Axis 0 needs a first dimension that is
    one or differs from the second (see the finding). *)
Theorem C24_axial_elements :
  forall (T : Type) (fresh : nat -> T) (f : T -> T -> T) (left : bool) (axis : nat) (s : shape) (small big : list T),
    is_fully_defined s = true -> 1 < length s -> axis < length s ->
    length big = n_elems s -> length small = n_elems (axis_removed axis s) -> 1 < length small ->
    (axis = 0 -> nth 0 s 0 <> nth 1 s 0 \/ nth 0 s 0 = 1) ->
    exists d, forward_pass fresh (binary_axial_shape axis left) (binary_axial f axis left)
        (if left then [(axis_removed axis s, small); (s, big)] else [(s, big); (axis_removed axis s, small)]) None = Ok (s, d) /\
      length d = n_elems s /\
      forall c, in_bounds s c -> exists x y,
        nth_error small (offset (remove_at axis s) (remove_at axis c)) = Some x /\
        nth_error big (offset s c) = Some y /\
        nth_error d (offset s c) = Some (if left then f x y else f y x).
Proof. exact C24_axial_elements_lemma. Qed.
Print Assumptions C24_axial_elements.

(** With a one-element smaller argument the axis does not matter. *)
Theorem C24_axial_scalar :
  forall (T : Type) (fresh : nat -> T) (f : T -> T -> T) (left : bool) (axis : nat) (s s1 : shape) (x : T) (big : list T),
    is_fully_defined s = true -> n_elems s1 = 1 -> length big = n_elems s ->
    forward_pass fresh (binary_axial_shape axis left) (binary_axial f axis left)
      (if left then [(s1, [x]); (s, big)] else [(s, big); (s1, [x])]) None
    = Ok (s, map (fun y => if left then f x y else f y x) big).
Proof. exact C24_axial_scalar_lemma. Qed.
Print Assumptions C24_axial_scalar.

(** Finding: along axis 0 of a larger argument whose first two dimensions are equal the index
    into the smaller argument is not reduced, and the forward pass reads past its end:
    subtracting the column sums [3] of a [3;3] matrix is undefined behaviour. *)
Theorem C24_axial_square_refuted :
  forall (T : Type) (fresh : nat -> T) (f : T -> T -> T) (left : bool) (n : nat) (small big : list T),
    2 <= n -> length small = n -> length big = n * n ->
    forward_pass fresh (binary_axial_shape 0 left) (binary_axial f 0 left)
      (if left then [([n], small); ([n; n], big)] else [([n; n], big); ([n], small)]) None = UB.
Proof. exact C24_axial_square_refuted_lemma. Qed.
Print Assumptions C24_axial_square_refuted.

(** Finding: a one-element larger argument takes the shape of the smaller one and is read past
    its end. *)
Theorem C24_axial_single_big_refuted :
  forward_pass (fun _ => 0%Z) (binary_axial_shape 1 true) (binary_axial Z.add 1 true) [([3], [1; 2; 3]%Z); ([1], [5%Z])] None = UB.
Proof. exact C24_axial_single_big_refuted_lemma. Qed.
Print Assumptions C24_axial_single_big_refuted.

(** Finding: an axis that is not below the rank of the larger argument writes outside its
    dimension list instead of being rejected. *)
Theorem C24_axial_axis_out_of_range_refuted :
  forall (T : Type) (fresh : nat -> T) (f : T -> T -> T) axis (s s1 : shape) (a b : list T),
    length s <= axis -> 0 < axis -> n_elems s1 <> 1 -> n_elems s <> 1 ->
    forward_pass fresh (binary_axial_shape axis true) (binary_axial f axis true) [(s1, a); (s, b)] None = UB.
Proof. exact C24_axial_axis_out_of_range_refuted_lemma. Qed.
Print Assumptions C24_axial_axis_out_of_range_refuted.

Example C24_nonvacuous :
  forward_pass (fun _ => 0%Z) (binary_axial_shape 1 false) (binary_axial Z.sub 1 false)
    [([2; 3], [1; 2; 3; 4; 5; 6]%Z); ([2], [1; 2]%Z)] None = Ok ([2; 3], [0; 0; 2; 2; 4; 4]%Z) /\
  forward_pass (fun _ => 0%Z) (binary_axial_shape 1 true) (binary_axial Z.sub 1 true)
    [([2; 1; 2], [1; 2; 3; 4]%Z); ([2; 2; 2], [1; 2; 3; 4; 5; 6; 7; 8]%Z)] None = Ok ([2; 2; 2], [0; 0; -2; -2; -2; -2; -4; -4]%Z) /\
  axis_removed 1 [2; 3] = [2] /\ axis_removed 1 [2; 2; 2] = [2; 1; 2].
Proof. exact C24_nonvacuous_lemma. Qed.

(** Every unary operation, on a constant (folded), on a "neg" node and on any other node
    alike, gives a tensor that stands for the operation's function applied to each element: of
    the argument's size, or a single element that equals all of them. *)
Theorem C25_unary :
  forall (T : Type) (N : num T), num_laws N -> forall (fresh : nat -> T) (op : uop) (a : node),
    is_fully_defined (fst (value N a)) = true -> length (snd (value N a)) = n_elems (fst (value N a)) ->
    (op = UAbs -> is_const a = false) -> divisors_ok N op (snd (value N a)) ->
    exists s d, build_unary N fresh op a = Ok (s, d) /\ length d = n_elems s /\ (s = fst (value N a) \/ s = [1]) /\
      broadcast (length (snd (value N a))) d = map (meaning N op) (snd (value N a)).
Proof. exact C25_unary_lemma. Qed.
Print Assumptions C25_unary.

(** So folding a constant and evaluating a node of the same value agree. *)
Theorem C25_fold_agrees :
  forall (T : Type) (N : num T), num_laws N -> forall (fresh : nat -> T) (op : uop) (t : tens T) (a : node),
    op <> UAbs -> value N a = t -> is_fully_defined (fst t) = true -> length (snd t) = n_elems (fst t) -> divisors_ok N op (snd t) ->
    exists r r', build_unary N fresh op (NConst t) = Ok r /\ build_unary N fresh op a = Ok r' /\
      broadcast (length (snd t)) (snd r) = broadcast (length (snd t)) (snd r').
Proof. exact C25_fold_agrees_lemma. Qed.
Print Assumptions C25_fold_agrees.

(** The same for the four binary operations, whether the arguments are constants, equal, one-
    element or neither. *)
Theorem C25_binary :
  forall (T : Type) (N : num T), num_laws N -> forall (fresh : nat -> T) (op : bop) (same : bool) (a b : node),
    let '(sa, la) := value N a in let '(sb, lb) := value N b in
    is_fully_defined sa = true -> length la = n_elems sa -> is_fully_defined sb = true -> length lb = n_elems sb ->
    length la = 1 \/ length lb = 1 \/ same_layout sa sb ->
    (same = true -> a = b) -> (op = BDiv -> Forall (fun x => x <> n_zero N) lb) ->
    let n := Nat.max (length la) (length lb) in
    exists s d, binary_op N fresh op same a b = Ok (s, d) /\ length d = n_elems s /\
      broadcast n d = map2 (bmeaning N op) (broadcast n la) (broadcast n lb).
Proof. exact C25_binary_lemma. Qed.
Print Assumptions C25_binary.

Theorem C25_binary_incompatible :
  forall (T : Type) (N : num T) (fresh : nat -> T) (op : bop) (a b : node),
    let '(sa, la) := value N a in let '(sb, lb) := value N b in
    is_fully_defined sa = true -> length la = n_elems sa -> is_fully_defined sb = true -> length lb = n_elems sb ->
    length la <> 1 -> length lb <> 1 -> ~ same_layout sa sb ->
    binary_op N fresh op false a b = Throw.
Proof. exact C25_binary_incompatible_lemma. Qed.
Print Assumptions C25_binary_incompatible.

(** Finding: unary plus ("abs") of a constant is the absolute value, of a node the node itself. *)
Theorem C25_abs_refuted :
  forall fresh, build_unary Rnum fresh UAbs (NConst ([1], [-1]%R)) = Ok ([1], [1%R]) /\
                build_unary Rnum fresh UAbs (NOther ([1], [-1]%R)) = Ok ([1], [(-1)%R]).
Proof. exact C25_abs_refuted_lemma. Qed.
Print Assumptions C25_abs_refuted.

(** Finding: multiplying by zero, raising to the power zero, subtracting a node from itself
    and dividing it by itself give a one-element constant, not a tensor of the argument's
    shape. *)
Theorem C25_shape_lost_refuted :
  forall (T : Type) (N : num T), num_laws N -> forall fresh (t : tens T),
    let a := NOther t in
    build_unary N fresh (UMulL (n_zero N)) a = Ok ([1], [n_zero N]) /\
    build_unary N fresh (UMulR (n_zero N)) a = Ok ([1], [n_zero N]) /\
    build_unary N fresh (UPow (n_zero N)) a = Ok ([1], [n_one N]) /\
    binary_op N fresh BSub true a a = Ok ([1], [n_zero N]) /\
    binary_op N fresh BDiv true a a = Ok ([1], [n_one N]).
Proof. exact C25_shape_lost_refuted_lemma. Qed.
Print Assumptions C25_shape_lost_refuted.

(** Finding: dividing a node by the scalar zero throws, dividing a constant by it does not. *)
Theorem C25_div_zero_refuted :
  forall fresh x, x <> 0%R ->
    build_unary Rnum fresh (UDivR 0%R) (NOther ([1], [x])) = Throw /\
    build_unary Rnum fresh (UDivR 0%R) (NConst ([1], [x])) = Ok ([1], [(x / 0)%R]).
Proof. exact C25_div_zero_refuted_lemma. Qed.
Print Assumptions C25_div_zero_refuted.

Example C25_nonvacuous :
  num_laws Rnum /\
  build_unary Rnum (fun _ => 0%R) (UAddL 2%R) (NOther ([2], [1; 3]%R)) = Ok ([2], [(2 + 1)%R; (2 + 3)%R]) /\
  build_unary Rnum (fun _ => 0%R) (UAddL 2%R) (NConst ([2], [1; 3]%R)) = Ok ([2], [(2 + 1)%R; (2 + 3)%R]) /\
  divisors_ok Rnum (UDivL 1%R) [1; 3]%R.
Proof. exact C25_nonvacuous_lemma. Qed.

(** clip_val: every element stays between the two bounds (in whichever order they are
    given), is unchanged when it already is, and is the nearer bound otherwise; for constants
    and other nodes alike. *)
Theorem C26_clip_val :
  forall fresh (lo hi : R) (a : node),
    is_fully_defined (fst (value Rnum a)) = true -> length (snd (value Rnum a)) = n_elems (fst (value Rnum a)) ->
    exists s d, build_unary Rnum fresh (UClip lo hi) a = Ok (s, d) /\ length d = length (snd (value Rnum a)) /\
      forall i x, nth_error (snd (value Rnum a)) i = Some x -> exists y, nth_error d i = Some y /\
        (Rmin lo hi <= y <= Rmax lo hi)%R /\
        ((Rmin lo hi <= x <= Rmax lo hi)%R -> y = x) /\
        ((x < Rmin lo hi)%R -> y = Rmin lo hi) /\ ((Rmax lo hi < x)%R -> y = Rmax lo hi).
Proof. exact C26_clip_val_lemma. Qed.
Print Assumptions C26_clip_val.

(** clip_norm of a constant: the squared norm never exceeds the cap, the result is a multiple
    of the argument, and it is the argument itself when its squared norm is within the cap. *)
Theorem C26_clip_norm_const :
  forall fresh (s : shape) (l : list R) (cap : R), (0 < cap)%R ->
    exists k d, clip_norm Rnum fresh (NConst (s, l)) cap = Ok (s, d) /\
      (0 < k <= 1)%R /\ d = map (fun x => (x * k)%R) l /\ (norm2 d <= cap)%R /\ ((norm2 l <= cap)%R -> d = l).
Proof. exact C26_clip_norm_const_lemma. Qed.
Print Assumptions C26_clip_norm_const.

Theorem C26_clip_norm_cap :
  forall fresh a (cap : R), (cap <= 0)%R -> clip_norm Rnum fresh a cap = Abort.
Proof. exact C26_clip_norm_cap_lemma. Qed.
Print Assumptions C26_clip_norm_cap.

(** Finding: the cap is compared with the squared norm, so with a cap below one the norm of
    the result can exceed it. *)
Theorem C26_clip_norm_squared_refuted :
  forall fresh, clip_norm Rnum fresh (NConst ([1], [(/ 2)%R])) (/ 4)%R = Ok ([1], [(/ 2)%R]) /\ (sqrt (norm2 [/ 2]) > / 4)%R.
Proof. exact C26_clip_norm_squared_refuted_lemma. Qed.
Print Assumptions C26_clip_norm_squared_refuted.

(** Finding: l2norm of a node looks at the first element only. *)
Theorem C26_l2norm_node_refuted :
  forall fresh (s : shape) x (l : list R),
    l2norm Rnum fresh (NOther (s, x :: l)) = Ok ([1], [Rabs x]).
Proof. exact C26_l2norm_node_refuted_lemma. Qed.
Print Assumptions C26_l2norm_node_refuted.

(** Finding: l2norm of a constant is the squared norm: the root is not taken. *)
Theorem C26_l2norm_const_refuted :
  forall fresh (s : shape) (l : list R), l2norm Rnum fresh (NConst (s, l)) = Ok ([1], [norm2 l]).
Proof. exact C26_l2norm_const_refuted_lemma. Qed.
Print Assumptions C26_l2norm_const_refuted.

(** Finding: clip_norm of a node always rescales by cap / |first element|: what is already
    within the cap is changed too, and the result's norm can exceed the cap. *)
Theorem C26_clip_norm_node_refuted :
  forall fresh (s : shape) x (l : list R) cap, (0 < cap)%R -> is_fully_defined s = true -> length (x :: l) = n_elems s -> n_elems s <> 1 ->
    clip_norm Rnum fresh (NOther (s, x :: l)) cap = Ok (s, map (fun y => (y * cap / Rabs x)%R) (x :: l)).
Proof. exact C26_clip_norm_node_refuted_lemma. Qed.
Print Assumptions C26_clip_norm_node_refuted.

Example C26_nonvacuous :
  (exists d, clip_norm Rnum (fun _ => 0%R) (NConst ([2], [3; 4]%R)) 5%R = Ok ([2], d) /\ norm2 d = 1%R) /\
  (exists d, clip_norm Rnum (fun _ => 0%R) (NOther ([2], [1; 1]%R)) 1%R = Ok ([2], d) /\ norm2 d = 2%R) /\
  is_fully_defined [2] = true.
Proof. exact C26_nonvacuous_lemma. Qed.
