(** Model of how operations look for an existing node before they make a new one:
    operation_utils.ipp, inode.ipp:75-90 (find_audience) and the beginning of every builder in
    elementary.ipp, transform.ipp and matmul.ipp. Nodes are numbered in the order of creation
    and live in one list; a deleted node keeps its place and is marked (addresses are not
    reused). Shortcuts for constants, for scalars 0 and 1 and for one-element constants are in
    ElemModel.v; random sampling (binomial_sample) and the "grouping" metadata are left out.
    shape_dep nodes are those of reduce_mean. *)
From Coq Require Import String Ascii DecimalString ZArith.
From Verif Require Import Common ShapeModel TransformModel MatmulModel ElemModel GradModel.
Local Open Scope string_scope.
Local Open Scope list_scope.

(** nnutils::formatter << n for a size_t *)
Definition dec (n : nat) : string := NilZero.string_of_uint (Nat.to_uint n).

Section Cse.
(** [fresh] and [strassen_on] as in GradModel; [of_nat] the conversion of arg_max's result;
    [show x] is what operator << of a stream writes for x (6 significant digits by default) *)
Context {T : Type} (N : num T) (fresh : nat -> T) (strassen_on : bool) (of_nat : nat -> T) (show : T -> string).

(** operation nodes. [KUn] is for the unary operations of ElemModel except conditional, which
    has a name here. *)
Inductive cop :=
| KId | KConst
| KUn (op : @uop T)
| KCondL (name : string) (cmp : T -> T -> bool) (a : T)
| KCondR (name : string) (cmp : T -> T -> bool) (b : T)
| KCond (name : string) (cmp : T -> T -> bool)
| KBin (op : bop) | KAx (op : bop) (lft : bool) (axis : nat)
| KMat (tA tB : bool) | KTr (ax : nat * nat) | KFit | KExt (index multiplier : nat)
| KMax (axis : option nat) | KSum (axis : option nat) | KArgMax (axis : option nat)
| KFlip (dims : list nat) | KCorr (d1 d2 : nat)
| KNorm | KClipNorm (cap : T)
| KSize (axis : option nat).

Definition bop_name (op : bop) : string := match op with BAdd => "add" | BSub => "sub" | BMul => "mul" | BDiv => "div" end.
Definition opt_axis (axis : option nat) : list string := match axis with Some i => [dec i] | None => [] end.
(** the parts of a node's label, which are separated by "_" in it *)
Definition tokens (op : cop) : list string :=
  match op with
  | KId => ["identity"] (* elementary.ipp:403 *)
  | KConst => ["const"; "immutable"] (* const_immutable.ipp:33 *)
  | KUn UAbs => ["abs"] (* elementary.ipp:452 *)
  | KUn UNeg => ["neg"] | KUn USin => ["sin"] | KUn UCos => ["cos"] | KUn UTan => ["tan"] (* 497-609 *)
  | KUn UCsc => ["csc"] | KUn USec => ["sec"] | KUn UCot => ["cot"] | KUn UExp => ["exp"] (* 649-766 *)
  | KUn USqrt => ["sqrt"] | KUn URound => ["round"] | KUn ULog => ["log"] (* 804-879 *)
  | KUn (UPow s) => ["pow"; show s] (* 925 *)
  | KUn (UClip lo hi) => let '(lo, hi) := clip_order N lo hi in ["clip"; "val"; show lo; show hi] (* 950-968 *)
  | KUn (UCondL _ _) | KUn (UCondR _ _) => []
  | KUn (UAddL a) => [show a; "add"] | KUn (UAddR b) => ["add"; show b] (* 1351, 1396 *)
  | KUn (USubL a) => [show a; "sub"] | KUn (USubR b) => ["sub"; show b] (* 1475, 1520 *)
  | KUn (UMulL a) => [show a; "mul"] | KUn (UMulR b) => ["mul"; show b] (* 1606, 1659 *)
  | KUn (UDivL a) => [show a; "div"] | KUn (UDivR b) => ["div"; show b] (* 1750, 1801 *)
  | KCondL name _ a => ["conditional"; name; show a] (* 1104 *)
  | KCondR name _ b => ["conditional"; name; show b] (* 1143 *)
  | KCond name _ => ["conditional"; name] (* 1185 *)
  | KBin op => [bop_name op] (* 1440, 1564, 1704, 1845 *)
  | KAx op lft axis => [bop_name op; "axis"; if lft then "a" else "b"; dec axis] (* 1866-2001 *)
  | KMat _ _ => ["matmul"] (* matmul.ipp:273 *)
  | KTr ax => let '(i, j) := order_axes ax in ["transpose"; dec i; dec j] (* transform.ipp:21-25 *)
  | KFit => ["fit"] (* 97 *)
  | KExt i m => ["extend"; dec i; dec m] (* 142 *)
  | KMax axis => "reduce" :: "max" :: opt_axis axis (* 197, 318 *)
  | KSum axis => "reduce" :: "sum" :: opt_axis axis (* 197, 328 *)
  | KArgMax axis => "arg" :: "max" :: opt_axis axis (* 359, 457 *)
  | KFlip dims => "flip" :: map dec dims (* 465-471 *)
  | KCorr d1 d2 => ["cross"; "conv"; dec d1; dec d2] (* 511 *)
  | KNorm => ["l2norm"] (* elementary.ipp:1011 *)
  | KClipNorm cap => ["clip"; "l2norm"; show cap] (* 1062 *)
  | KSize (Some i) => ["axis"; dec i; "size"] (* transform.ipp:341 *)
  | KSize None => ["shape"; "nelems"] (* transform.ipp:349 *)
  end.
Definition label (op : cop) : string := String.concat "_" (tokens op).
(** the label the builder looks for: as_constant looks for "constant_immutable"
    (elementary.ipp:429), but its nodes are called "const_immutable" *)
Definition search_label (op : cop) : string :=
  match op with KConst => "constant_immutable" | _ => label op end.

Definition arity (op : cop) : nat :=
  match op with KCond _ _ | KBin _ | KAx _ _ _ | KMat _ _ | KFit | KCorr _ _ => 2 | _ => 1 end.

(** tensor_handler.ipp:57-73 shape_extracter::operator(): the numbers [shaper] makes of the
    argument shapes, a row per argument, 1 where there is none *)
Definition extract (shaper : shape -> res (list nat)) (outs : shape) (ins : list shape) (_ : list (list T)) (dest : list T) : res (list T) :=
  ncol <- rd outs 0 ;;
  nrow <- (if (length outs <? 2)%nat then Ok 1 else rd outs 1) ;;
  for_ nrow (fun i d =>
    s <- rd ins i ;; sv <- shaper s ;;
    for_ (length sv) (fun j d => x <- rd sv j ;; wr d (i * ncol + j) (of_nat x)) d) (repeat (n_one N) (length dest)).

(** what a node computes from its arguments' tensors: the forward functions and shapers given
    to immutable::get; the node of clip_norm has the arguments l2norm(a) and a *)
Definition sem (op : cop) (ts : list (tens T)) : res (tens T) :=
  let pass := forward_pass fresh in
  match op with
  | KId => pass elementary_shaper (transform_fwd (fun x => x)) ts None (* elementary.ipp:408-417 *)
  | KConst => pass (fun shapes => rd shapes 0) (transform_fwd (fun x => x)) ts None (* const_immutable.ipp:25-30 *)
  | KUn op => pass elementary_shaper (transform_fwd (fwd_lambda N op)) ts None
  | KCondL _ cmp a => pass elementary_shaper (transform_fwd (fwd_lambda N (UCondL a cmp))) ts None
  | KCondR _ cmp b => pass elementary_shaper (transform_fwd (fwd_lambda N (UCondR cmp b))) ts None
  | KCond _ cmp => pass elementary_shaper (binary_elem (fun x y => bool_T N (cmp x y))) ts None
  | KBin op => pass elementary_shaper (binary_elem (bop_lambda N op)) ts None
  | KAx op lft axis => pass (binary_axial_shape axis lft) (binary_axial (bop_lambda N op) axis lft) ts None
  | KMat _ _ => pass mat_shaper (mat_forward N fresh strassen_on) ts None
  | KTr ax => pass (shaper1 (transpose_shape (order_axes ax))) (forward1 (transpose_fwd (order_axes ax))) ts None
  | KFit => (* transform.ipp:102-128 *)
    pass (fun shapes => rd shapes 1)
      (fun outs ins srcs dest => i0 <- rd ins 0 ;; i1 <- rd ins 1 ;; s <- rd srcs 0 ;; fit_op_fwd (n_zero N) outs i0 i1 s dest) ts None
  | KExt i m => pass (shaper1 (extend_shape i m)) (forward1 (extend_fwd i)) ts None
  | KMax None => pass (shaper1 (fun s => Ok (compress_all_shape s))) (forward1 (fun _ => compress_all_fwd (n_max N))) ts None
  | KMax (Some i) => pass (shaper1 (compress_shape i)) (forward1 (compress_fwd (n_max N) i)) ts None
  | KSum None => pass (shaper1 (fun s => Ok (compress_all_shape s))) (forward1 (fun _ => compress_all_fwd (n_add N))) ts None
  | KSum (Some i) => pass (shaper1 (compress_shape i)) (forward1 (compress_fwd (n_add N) i)) ts None
  | KArgMax None => pass (shaper1 (fun s => Ok (arg_compress_all_shape s))) (forward1 (fun _ => arg_compress_all_fwd (arg_max_search (n_ltb N) of_nat))) ts None
  | KArgMax (Some i) => pass (shaper1 (arg_compress_shape i)) (forward1 (arg_compress_fwd (arg_max_search (n_ltb N) of_nat) i)) ts None
  | KFlip dims => pass (shaper1 (fun s => Ok (flip_shape s))) (forward1 (flip_fwd dims)) ts None
  | KCorr d1 d2 => (* transform.ipp:518-551 *)
    pass (fun shapes => s0 <- rd shapes 0 ;; s1 <- rd shapes 1 ;;
            o <- cross_corr_shape d1 d2 (map N.of_nat s0) (map N.of_nat s1) ;; Ok (map N.to_nat o))
      (fun outs ins srcs dest => i0 <- rd ins 0 ;; a <- rd srcs 0 ;; b <- rd srcs 1 ;;
            cross_corr_fwd (n_zero N) (n_add N) (n_mul N) d1 d2 outs i0 a b dest) ts None
  | KNorm => pass (fun _ => Ok [1]) (l2norm_fwd N) ts None (* elementary.ipp:1016-1030 *)
  | KClipNorm cap => pass elementary_shaper (clip_norm_fwd N cap) ts None (* 1065-1078 *)
  | KSize (Some i) => pass (fun _ => Ok [1]) (extract (fun s => d <- rd s i ;; Ok [d])) ts None (* shape_dep.ipp:130-143, transform.ipp:336-341 *)
  | KSize None => pass (fun _ => Ok [1]) (extract (fun s => Ok [n_elems s])) ts None (* transform.ipp:345-349 *)
  end.

(** a node: still there?, label, operation (None for a leaf), arguments *)
Record gnode := mkG { g_alive : bool; g_label : string; g_op : option cop; g_args : list nat }.
Definition graph := list gnode.

Definition mem (x : nat) (l : list nat) : bool := existsb (Nat.eqb x) l.
Definition alive_at (g : graph) (m : nat) : bool := match nth_error g m with Some nd => g_alive nd | None => false end.
(** inode.ipp:75-90 find_audience: the nodes with that label that observe a, i.e. have it as
    an argument *)
Definition audience (g : graph) (a : nat) (l : string) : list nat :=
  filter (fun m => match nth_error g m with
                   | Some nd => g_alive nd && mem a (g_args nd) && (g_label nd =? l)%string
                   | None => false
                   end) (seq 0 (length g)).
Definition args_of (g : graph) (m : nat) : list nat := match nth_error g m with Some nd => g_args nd | None => [] end.
Definition same_args (l l' : list nat) : bool := if list_eq_dec Nat.eq_dec l l' then true else false.

(** which search the builder uses: operation_utils.ipp:15-23, 26-42, 45-63 *)
Inductive skind := SUnary | SOrdered | SUnordered | SShape.
Definition kind_of (op : cop) : skind :=
  match op with
  | KBin BAdd | KBin BMul | KAx BAdd _ _ | KAx BMul _ _ => SUnordered (* elementary.ipp:194, 294 *)
  | KBin _ | KAx _ _ _ => SOrdered (* 244, 345 *)
  | KMat _ _ | KCond _ _ | KFit | KCorr _ _ => SOrdered (* matmul.ipp:274, elementary.ipp:1186, transform.ipp:98, 512 *)
  | KSize _ => SShape (* shape_dep.ipp:20-44 *)
  | _ => SUnary
  end.
(** dynamic_cast<shape_dep<T>*> *)
Definition is_shape_dep (g : graph) (m : nat) : bool :=
  match nth_error g m with Some nd => match g_op nd with Some (KSize _) => true | _ => false end | None => false end.
(** [pick]: the first of an unordered set, whatever that is *)
Context (pick : list nat -> option nat).
Definition search (g : graph) (op : cop) (args : list nat) : option nat :=
  match kind_of op, args with
  | SUnary, [a] => pick (audience g a (search_label op))
  | SOrdered, [a; b] => pick (filter (fun m => same_args (args_of g m) [a; b]) (audience g a (search_label op)))
  | SShape, [a] => pick (filter (fun m => is_shape_dep g m && same_args (args_of g m) [a]) (audience g a (search_label op)))
  | SUnordered, [a; b] =>
    pick (filter (fun m => same_args (args_of g m) [a; b] || same_args (args_of g m) [b; a]) (audience g a (search_label op)))
  | _, _ => None
  end.

(** immutable::get: a new node *)
Definition add_node (g : graph) (op : cop) (args : list nat) : graph * nat :=
  (g ++ [mkG true (label op) (Some op) args], length g).
(** search, otherwise a new node *)
Definition build (g : graph) (op : cop) (args : list nat) : graph * nat :=
  match search g op args with
  | Some m => (g, m)
  | None => add_node g op args
  end.

(** elementary.ipp:486-496 and transform.ipp:27-34: an operation node (not a leaf) that has the
    label and a single argument is undone by returning that argument *)
Definition shortcut (g : graph) (op : cop) (args : list nat) : option nat :=
  let undo := match args with
    | [a] => match nth_error g a with
             | Some nd => match g_op nd, g_args nd with
                          | Some _, [c] => if (g_label nd =? label op)%string then Some c else None
                          | _, _ => None
                          end
             | None => None
             end
    | _ => None
    end in
  match op with KUn UNeg | KTr _ => undo | _ => None end.

(** a call of the builder of [op]; elementary.ipp:1059-1064: the node of clip_norm(a, cap) has
    the arguments l2norm(a) and a *)
Definition make (g : graph) (op : cop) (args : list nat) : graph * nat :=
  match shortcut g op args with
  | Some c => (g, c)
  | None =>
    match op with
    | KClipNorm _ =>
      match search g op args with
      | Some m => (g, m)
      | None => let '(g1, m) := build g KNorm args in add_node g1 op (m :: args)
      end
    | _ => build g op args
    end
  end.

(** matmul.ipp:249-279 matmul: transposed arguments first *)
Definition mat_arg (g : graph) (transposed : bool) (a : nat) : graph * nat :=
  if transposed then
    match pick (audience g a "transpose_0_1") with
    | Some m => (g, m)
    | None => make g (KTr (0, 1)) [a]
    end
  else (g, a).
Definition make_mat (g : graph) (tA tB : bool) (a b : nat) : graph * nat :=
  let '(g1, a') := mat_arg g tA a in
  let '(g2, b') := mat_arg g1 tB b in
  make g2 (KMat tA tB) [a'; b'].

(** transform.ipp:331-352 reduce_mean *)
Definition make_mean (g : graph) (axis : option nat) (a : nat) : graph * nat :=
  let '(g1, d) := make g (KSize axis) [a] in
  let '(g2, s) := make g1 (KSum axis) [a] in
  make g2 (KBin BDiv) [s; d].

(** what happens to a graph: a new leaf (with any label), a builder call on living nodes (HMat for matmul with flags,
    HMean for reduce_mean),
    deletion of a node nothing depends on, inode.ipp:69-73 set_label *)
Inductive hop := HLeaf (l : string) | HMake (op : cop) (args : list nat) | HMat (tA tB : bool) (a b : nat) | HMean (axis : option nat) (a : nat) | HDel (n : nat) | HLabel (n : nat) (l : string).
Definition step (g : graph) (h : hop) : res graph :=
  match h with
  | HLeaf l => Ok (g ++ [mkG true l None []])
  | HMake op args =>
    if (length args =? arity op)%nat && forallb (alive_at g) args then Ok (fst (make g op args)) else UB
  | HMat tA tB a b => if alive_at g a && alive_at g b then Ok (fst (make_mat g tA tB a b)) else UB
  | HMean axis a => if alive_at g a then Ok (fst (make_mean g axis a)) else UB
  | HDel n =>
    nd <- rd g n ;;
    if g_alive nd && forallb (fun m => negb (g_alive m && mem n (g_args m))) g
    then Ok (set_nth n (mkG false (g_label nd) (g_op nd) (g_args nd)) g) else UB
  | HLabel n l =>
    nd <- rd g n ;; Ok (set_nth n (mkG (g_alive nd) l (g_op nd) (g_args nd)) g)
  end.
Fixpoint run (g : graph) (hs : list hop) : res graph :=
  match hs with [] => Ok g | h :: rest => g <- step g h ;; run g rest end.

(** the values of all nodes, in order of creation, for the leaf values [env] *)
Definition node_value (env : nat -> tens T) (vs : list (res (tens T))) (nd : gnode) : res (tens T) :=
  match g_op nd with
  | None => Ok (env (length vs))
  | Some op =>
    ts <- fold_right (fun a r => r <- r ;; v <- rd vs a ;; t <- v ;; Ok (t :: r)) (Ok []) (g_args nd) ;;
    sem op ts
  end.
Fixpoint values (env : nat -> tens T) (g : graph) (vs : list (res (tens T))) : list (res (tens T)) :=
  match g with [] => vs | nd :: rest => values env rest (vs ++ [node_value env vs nd]) end.
Definition gvalue (env : nat -> tens T) (g : graph) (n : nat) : res (tens T) :=
  match nth_error (values env g []) n with Some r => r | None => UB end.
End Cse.
