(** Model of app/tenncor/src/graph/operations/elementary.ipp (forward functions, shapers and
    the building of nodes with constant folding) and of immutable::forward_pass.
    Reuse of an existing parent node by label is left out here (see the graph model), as is
    the "grouping" metadata that selects the axial variants: those are separate functions. *)
From Verif Require Import Common ShapeModel.

(** a tensor: its shape and its elements in storage order *)
Definition tens (T : Type) := (shape * list T)%type.

(** elementary.ipp:16-38 elementary_shaper *)
Fixpoint elementary_loop (shapes : list shape) (lastshape : shape) : res shape :=
  match shapes with
  | [] => Ok lastshape
  | s :: rest =>
    if n_elems s =? 1 then elementary_loop rest lastshape
    else
      c <- is_compatible_with s lastshape ;;
      if c then elementary_loop rest s else Throw
  end.
Definition elementary_shaper (shapes : list shape) : res shape :=
  lastshape <- elementary_loop shapes [] ;;
  Ok (if is_fully_defined lastshape then lastshape else [1]).

(** elementary.ipp:40-89 binary_axial_shape *)
Definition binary_axial_shape (axis : nat) (left : bool) (shapes : list shape) : res shape :=
  s0 <- rd shapes 0 ;;
  s1 <- rd shapes 1 ;;
  let shape1 := if left then s0 else s1 in
  let shape2 := if left then s1 else s0 in
  if n_elems shape1 =? 1 then Ok shape2
  else if n_elems shape2 =? 1 then Ok shape1
  else
    s2list <- (if axis =? 0 then match shape2 with [] => UB | _ :: t => Ok t end
               else if axis =? length shape2 - 1 then Ok (removelast shape2)
               else wr shape2 axis 1) ;;
    c <- is_compatible_with shape1 s2list ;;
    if c then Ok (if is_fully_defined shape2 then shape2 else [1]) else Throw.

Section Elem.
Context {T : Type}.

(** a forward function: result shape, argument shapes, argument buffers, destination
    buffer (TRANSFER_FUNC, include/tensor/tensor_handler.hpp) *)
Definition forward := shape -> list shape -> list (list T) -> list T -> res (list T).

(** [std::transform(src[k], src[k] + n_elems, dest, f)] as in elementary.ipp:458-461 and all
    other unary operations *)
Definition transform_fwd (f : T -> T) : forward := fun outs ins srcs dest =>
  src <- rd srcs 0 ;;
  for_ (n_elems outs) (fun i d => v <- rd src i ;; wr d i (f v)) dest.

(** elementary.ipp:92-107 binary_elem *)
Definition binary_elem (aggregate : T -> T -> T) : forward := fun outs ins srcs dest =>
  _ <- assert_ (2 =? length srcs) ;;
  let n_out := n_elems outs in
  i0 <- rd ins 0 ;; i1 <- rd ins 1 ;;
  let left_mul := if 1 <? n_elems i0 then 1 else 0 in
  let right_mul := if 1 <? n_elems i1 then 1 else 0 in
  s0 <- rd srcs 0 ;; s1 <- rd srcs 1 ;;
  for_ n_out (fun i d =>
    x <- rd s0 (i * left_mul) ;;
    y <- rd s1 (i * right_mul) ;;
    wr d i (aggregate x y)) dest.

(** elementary.ipp:139-160: the index into the axial argument *)
Definition axial_index (axis : nat) (outs ilist olist : shape) (i : nat) : res nat :=
  first <- (if axis =? 0 then x <- rd ilist axis ;; y <- rd olist axis ;; Ok (negb (x =? y)) else Ok false) ;;
  if (first : bool) then
    coords <- coordinate_from_idx outs i ;;
    x <- rd ilist axis ;;
    y <- rd olist (axis + 1) ;;
    if negb (x =? y) then Throw
    else match coords with [] => UB | _ :: coords' => flat_idx ilist coords' end
  else
    second <- (if length ilist <=? axis then Ok true
               else x <- rd ilist axis ;;
                    if x =? 1 then y <- rd olist axis ;; Ok (1 <? y) else Ok false) ;;
    if (second : bool) then
      coords <- coordinate_from_idx outs i ;;
      coords' <- wr coords axis 0 ;;
      flat_idx ilist coords'
    else Ok i.

(** elementary.ipp:110-166 binary_axial *)
Definition binary_axial (aggregate0 : T -> T -> T) (axis : nat) (left : bool) : forward := fun outs ins srcs dest =>
  let aggregate := if left then aggregate0 else fun l r => aggregate0 r l in
  let idx := if left then 0 else 1 in
  _ <- assert_ (2 =? length srcs) ;;
  let n := n_elems outs in
  let olist := outs in
  ilist <- rd ins idx ;;
  sa <- rd srcs idx ;;
  sb <- rd srcs ((idx + 1) mod 2) ;;
  if 1 =? n_elems ilist then
    for_ n (fun i d => x <- rd sa 0 ;; y <- rd sb i ;; wr d i (aggregate x y)) dest
  else
    for_ n (fun i d =>
      axis_idx <- axial_index axis outs ilist olist i ;;
      x <- rd sa axis_idx ;;
      y <- rd sb i ;;
      wr d i (aggregate x y)) dest.

(** immutable.ipp:125-172 forward_pass (with transfer_func::operator(),
    tensor_handler.ipp:159-173): [old] is the node's tensor if it was computed before. A new
    tensor has arbitrary content. *)
Definition forward_pass (fresh : nat -> T) (shaper : list shape -> res shape) (Nf : forward) (args : list (tens T)) (old : option (tens T)) : res (tens T) :=
  s <- shaper (map fst args) ;;
  match old with
  | None =>
    if is_fully_defined s then
      d <- Nf s (map fst args) (map snd args) (map fresh (seq 0 (n_elems s))) ;;
      Ok (s, d)
    else Throw
  | Some (oshape, odata) =>
    c <- (if is_fully_defined s then is_compatible_with s oshape else Ok true) ;;
    if c then
      d <- Nf oshape (map fst args) (map snd args) odata ;;
      Ok (oshape, d)
    else Throw
  end.

(** the scalar functions the templates use *)
Record num := {
  n_zero : T; n_one : T; n_two : T;
  n_add : T -> T -> T; n_sub : T -> T -> T; n_mul : T -> T -> T; n_div : T -> T -> T; n_neg : T -> T;
  n_abs : T -> T; n_sin : T -> T; n_cos : T -> T; n_tan : T -> T; n_exp : T -> T; n_sqrt : T -> T;
  n_round : T -> T; n_log : T -> T; n_pow : T -> T -> T;
  n_eqb : T -> T -> bool; n_ltb : T -> T -> bool
}.
End Elem.
Arguments num : clear implicits.

Section Build.
Context {T : Type} (N : num T) (fresh : nat -> T).
Notation zero := (n_zero N).
Notation one := (n_one N).

(** unary operations, among them the operations with one scalar argument *)
Inductive uop :=
| UAbs | UNeg | USin | UCos | UTan | UCsc | USec | UCot | UExp | USqrt | URound | ULog
| UPow (s : T) | UClip (lo hi : T) | UCondL (a : T) (compare : T -> T -> bool) | UCondR (compare : T -> T -> bool) (b : T)
| UAddL (a : T) | UAddR (b : T) | USubL (a : T) | USubR (b : T) | UMulL (a : T) | UMulR (b : T) | UDivL (a : T) | UDivR (b : T).

Definition bool_T (b : bool) : T := if b then one else zero.

(** [if (min > x) min; else if (max < x) max; else x], after the swap *)
Definition clip (lo hi x : T) : T := if n_ltb N x lo then lo else if n_ltb N hi x then hi else x.
(** elementary.ipp:955-958 *)
Definition clip_order (lo hi : T) : T * T := if n_ltb N hi lo then (hi, lo) else (lo, hi).

(** what the branch for constant arguments computes for each element (elementary.ipp:448,
    484, 529, 567, 605, 645, 684, 723, 762, 800, 838, 875, 921, 963-964, 1100, 1139,
    1347, 1391, 1471, 1515, 1599, 1652, 1742, 1792) *)
Definition const_lambda (op : uop) (x : T) : T :=
  match op with
  | UAbs => n_abs N x
  | UNeg => n_neg N x
  | USin => n_sin N x
  | UCos => n_cos N x
  | UTan => n_tan N x
  | UCsc => n_div N one (n_sin N x)
  | USec => n_div N one (n_cos N x)
  | UCot => n_div N (n_cos N x) (n_sin N x)
  | UExp => n_exp N x
  | USqrt => n_sqrt N x
  | URound => n_round N x
  | ULog => n_log N x
  | UPow s => n_pow N x s
  | UClip lo hi => let '(lo, hi) := clip_order lo hi in clip lo hi x
  | UCondL a compare => bool_T (compare a x)
  | UCondR compare b => bool_T (compare x b)
  | UAddL a => n_add N a x
  | UAddR b => n_add N x b
  | USubL a => n_sub N a x
  | USubR b => n_sub N x b
  | UMulL a => n_mul N a x
  | UMulR b => n_mul N x b
  | UDivL a => n_div N a x
  | UDivR b => n_div N x b
  end.

(** what the forward function of the node computes for each element (elementary.ipp:464,
    508, 545, 583, 621, 661, 700, 739, 778, 816, 854, 891, 937, 980-984, 1117, 1156, 1365,
    1410, 1489, 1534, 1621, 1674, 1764, 1815) *)
Definition fwd_lambda (op : uop) (x : T) : T :=
  match op with
  | UAbs => x
  | UNeg => n_neg N x
  | USin => n_sin N x
  | UCos => n_cos N x
  | UTan => n_tan N x
  | UCsc => n_div N one (n_sin N x)
  | USec => n_div N one (n_cos N x)
  | UCot => n_div N (n_cos N x) (n_sin N x)
  | UExp => n_exp N x
  | USqrt => n_sqrt N x
  | URound => n_round N x
  | ULog => n_log N x
  | UPow s => n_pow N x s
  | UClip lo hi => let '(lo, hi) := clip_order lo hi in clip lo hi x
  | UCondL a compare => bool_T (compare a x)
  | UCondR compare b => bool_T (compare x b)
  | UAddL a => n_add N a x
  | UAddR b => n_add N x b
  | USubL a => n_sub N a x
  | USubR b => n_sub N x b
  | UMulL a => n_mul N a x
  | UMulR b => n_mul N x b
  | UDivL a => n_div N a x
  | UDivR b => n_div N x b
  end.

(** an argument node: a constant, a "neg" node of some argument, or any other node, each
    with its current value *)
Inductive node :=
| NConst (t : tens T)
| NNeg (child : tens T)
| NOther (t : tens T).
Definition value (a : node) : tens T :=
  match a with
  | NConst t => t
  | NNeg child => (fst child, map (n_neg N) (snd child))
  | NOther t => t
  end.
Definition is_const (a : node) : bool := match a with NConst _ => true | _ => false end.

(** constant<T>::get(scalar), constant.ipp:63-71 *)
Definition const_scalar (v : T) : tens T := ([1], [v]).
(** operator == (constant, scalar), constant.ipp:126-130 *)
Definition const_is (t : tens T) (v : T) : bool :=
  match snd t with [x] => n_eqb N v x | _ => false end.

(** the common tail of every unary builder: fold a constant, otherwise make a node and
    evaluate it *)
Definition fold_or_node (op : uop) (a : node) : res (tens T) :=
  match a with
  | NConst t => Ok (fst t, map (const_lambda op) (snd t))
  | _ => forward_pass fresh elementary_shaper (transform_fwd (fwd_lambda op)) [value a] None
  end.

(** value of the node returned by a unary builder. The shortcuts come in the order of the
    code: neg 476-496, pow 905-915, scalar+node 1332-1351, node+scalar 1379-1395,
    scalar-node 1456-1475, node-scalar 1503-1519, scalar*node 1580-1606, node*scalar
    1635-1659, scalar/node 1722-1750, node/scalar 1779-1801 *)
Definition build_unary (op : uop) (a : node) : res (tens T) :=
  match op with
  | UNeg => match a with NNeg child => Ok child | _ => fold_or_node op a end
  | UPow s =>
    if n_eqb N s zero then Ok (const_scalar one)
    else if n_eqb N s one then Ok (value a)
    else fold_or_node op a
  | UAddL c =>
    if n_eqb N c zero then Ok (value a)
    else if is_const a && const_is (value a) zero then Ok (const_scalar c)
    else fold_or_node op a
  | UAddR c =>
    if is_const a then if const_is (value a) zero then Ok (const_scalar c) else fold_or_node op a
    else if n_eqb N c zero then Ok (value a) else fold_or_node op a
  | USubL c =>
    if n_eqb N c zero then match a with NNeg child => Ok child | _ => fold_or_node UNeg a end
    else if is_const a && const_is (value a) zero then Ok (const_scalar c)
    else fold_or_node op a
  | USubR c =>
    if is_const a then if const_is (value a) zero then Ok (const_scalar (n_neg N c)) else fold_or_node op a
    else if n_eqb N c zero then Ok (value a) else fold_or_node op a
  | UMulL c | UMulR c =>
    if is_const a then
      if const_is (value a) zero || n_eqb N zero c then Ok (const_scalar zero)
      else if const_is (value a) one then Ok (const_scalar c)
      else fold_or_node op a
    else if n_eqb N zero c then Ok (const_scalar zero)
    else if n_eqb N one c then Ok (value a)
    else if n_eqb N (n_neg N one) c then match a with NNeg child => Ok child | _ => fold_or_node UNeg a end
    else fold_or_node op a
  | UDivL c =>
    if is_const a then
      if const_is (value a) zero then Throw
      else if const_is (value a) one then Ok (const_scalar c)
      else fold_or_node op a
    else if n_eqb N c zero then Ok (const_scalar zero)
    else fold_or_node op a
  | UDivR c =>
    if is_const a then if const_is (value a) zero then Ok (const_scalar zero) else fold_or_node op a
    else if n_eqb N c zero then Throw
    else if n_eqb N c one then Ok (value a)
    else fold_or_node op a
  | _ => fold_or_node op a
  end.

(** the four binary helpers of elementary.ipp:168-363; [same] says whether both arguments are
    the same node *)
Inductive bop := BAdd | BSub | BMul | BDiv.
Definition bop_lambda (op : bop) : T -> T -> T :=
  match op with BAdd => n_add N | BSub => n_sub N | BMul => n_mul N | BDiv => n_div N end.

Definition first_of (t : tens T) : res T := rd (snd t) 0.
Definition one_elem (t : tens T) : bool := 1 =? n_elems (fst t).

Definition build_binary (op : bop) (shaper : list shape -> res shape) (Nf : forward) (same : bool) (a b : node) : res (tens T) :=
  let node := forward_pass fresh shaper Nf [value a; value b] None in
  match op with
  | BAdd =>
    if is_const a && const_is (value a) zero then Ok (value b)
    else if is_const a && one_elem (value a) then c <- first_of (value a) ;; build_unary (UAddL c) b
    else if is_const b && const_is (value b) zero then Ok (value a)
    else if is_const b && one_elem (value b) then c <- first_of (value b) ;; build_unary (UAddR c) a
    else node
  | BSub =>
    if same then Ok (const_scalar zero)
    else if is_const a && const_is (value a) zero then build_unary UNeg b
    else if is_const a && one_elem (value a) then c <- first_of (value a) ;; build_unary (USubL c) b
    else if is_const b && const_is (value b) zero then Ok (value a)
    else if is_const b && one_elem (value b) then c <- first_of (value b) ;; build_unary (USubR c) a
    else node
  | BMul =>
    if same then build_unary (UPow (n_two N)) a
    else if is_const a && const_is (value a) zero then Ok (const_scalar zero)
    else if is_const a && one_elem (value a) then c <- first_of (value a) ;; build_unary (UMulL c) b
    else if is_const b && const_is (value b) zero then Ok (const_scalar zero)
    else if is_const b && one_elem (value b) then c <- first_of (value b) ;; build_unary (UMulR c) a
    else node
  | BDiv =>
    if same then Ok (const_scalar one)
    else if is_const a && const_is (value a) zero then Ok (const_scalar zero)
    else if is_const a && one_elem (value a) then c <- first_of (value a) ;; build_unary (UDivL c) b
    else if is_const b && const_is (value b) zero then Throw
    else if is_const b && one_elem (value b) then c <- first_of (value b) ;; build_unary (UDivR c) a
    else node
  end.

(** elementary.ipp:1424-1453, 1548-1577, 1688-1719, 1829-1860: node op node without grouping *)
Definition binary_op (op : bop) (same : bool) (a b : node) : res (tens T) :=
  build_binary op elementary_shaper (binary_elem (bop_lambda op)) same a b.
(** elementary.ipp:1862-2016: the axial variants; [left] for the _a forms *)
Definition axial_op (op : bop) (axis : nat) (left : bool) (same : bool) (a b : node) : res (tens T) :=
  build_binary op (binary_axial_shape axis left) (binary_axial (bop_lambda op) axis left) same a b.

(** sum of squares in the code's order *)
Definition sumsq (l : list T) : T := fold_left (fun acc x => n_add N acc (n_mul N x x)) l zero.

(** elementary.ipp:1020-1030: forward of l2norm accumulates over [shape.outs_.n_elems()]
    elements, the size of the result *)
Definition l2norm_fwd : forward := fun outs ins srcs dest =>
  src <- rd srcs 0 ;;
  acc <- for_ (n_elems outs) (fun i acc => x <- rd src i ;; Ok (n_add N acc (n_mul N x x))) zero ;;
  wr dest 0 (n_sqrt N acc).

(** elementary.ipp:998-1037 l2norm *)
Definition l2norm (a : node) : res (tens T) :=
  match a with
  | NConst t => Ok (const_scalar (sumsq (snd t)))
  | _ => forward_pass fresh (fun _ => Ok [1]) l2norm_fwd [value a] None
  end.

(** elementary.ipp:1065-1078: forward of clip_norm *)
Definition clip_norm_fwd (cap : T) : forward := fun outs ins srcs dest =>
  s0 <- rd srcs 0 ;;
  norm <- rd s0 0 ;;
  s1 <- rd srcs 1 ;;
  for_ (n_elems outs) (fun i d => v <- rd s1 i ;; wr d i (n_div N (n_mul N v cap) norm)) dest.

(** elementary.ipp:1040-1089 clip_norm *)
Definition clip_norm (a : node) (cap : T) : res (tens T) :=
  _ <- assert_ (n_ltb N zero cap) ;;
  match a with
  | NConst t =>
    let norm := sumsq (snd t) in
    Ok (fst t, map (fun x => if n_ltb N cap norm then n_div N (n_mul N x cap) norm else x) (snd t))
  | _ =>
    nrm <- l2norm a ;;
    forward_pass fresh elementary_shaper (clip_norm_fwd cap) [nrm; value a] None
  end.
End Build.
