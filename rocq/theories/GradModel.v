(** Model of gradient construction: base_immutable::derive / get_gradient,
    immutable::backward_pass, the Jacobian lists of iconnector, and the backward functions of
    app/tenncor/src/graph/operations/elementary.ipp, matmul.ipp and transform.ipp (transpose,
    reduce_sum and reduce_max without axis). Nodes are expression trees (a node shared by
    several parents appears several times); gcache_ only avoids recomputation. *)
From Verif Require Import Common ShapeModel TransformModel MatmulModel ElemModel.

Section Grad.
(** [fresh] is the content of newly allocated memory, [strassen_on] says whether
    ENABLE_STRASSEN was defined *)
Context {T : Type} (N : num T) (fresh : nat -> T) (strassen_on : bool).
Notation zero := (n_zero N).
Notation one := (n_one N).

(** leaves (variables and placeholders by number, constants) and operation nodes. None of
    them carries "grouping" metadata. *)
Inductive expr :=
| EVar (v : nat)
| EConst (t : tens T)
| EUn (op : @uop T) (a : expr)
| EBin (op : bop) (a b : expr)
| EEq (a b : expr)                     (* eq(a, b) *)
| ETr (a : expr)                       (* transpose(a, {0, 1}) *)
| ESum (a : expr)                      (* reduce_sum(a) *)
| EMax (a : expr)                      (* reduce_max(a) *)
| ESumAx (axis : nat) (a : expr)       (* reduce_sum(a, axis) *)
| EMat (tA tB : bool) (a b : expr)     (* matmul; a and b are the arguments after transposing,
                                          tA and tB the flags it was called with *)
| EAxB (axis : nat) (a b : expr).      (* add_axial_b(a, b, axis) *)

(** pointer comparison of two nodes, elementary.ipp:216, 262, 313: any answer that never
    identifies different nodes (equal nodes may be distinct objects) *)
Context (same : expr -> expr -> bool).

(** matmul.ipp:279-351 as a forward function: destination and arguments are three separate
    blocks of memory *)
Definition mat_forward : @forward T := fun outs ins srcs dest =>
  al <- rd ins 0 ;; bl <- rd ins 1 ;; a <- rd srcs 0 ;; b <- rd srcs 1 ;;
  m <- matmul_fwd zero (n_add N) (n_sub N) (n_mul N) (fun blk i => fresh (blk + i)) strassen_on STRASSEN_THRESHOLD
         al bl (0, 0) (1, 0) (2, 0) [dest; a; b] ;;
  rd m 0.
Definition mat_shaper (shapes : list shape) : res shape :=
  al <- rd shapes 0 ;; bl <- rd shapes 1 ;; matmul_shaper al bl.
(** a forward function of one argument *)
Definition forward1 (f : shape -> shape -> list T -> list T -> res (list T)) : @forward T := fun outs ins srcs dest =>
  i <- rd ins 0 ;; s <- rd srcs 0 ;; f outs i s dest.
Definition shaper1 (f : shape -> res shape) (shapes : list shape) : res shape := s <- rd shapes 0 ;; f s.
(** std::max as in reduce_max, transform.ipp:313-317 *)
Definition n_max (x y : T) : T := if n_ltb N x y then y else x.

(** value of a node: immutable.ipp:125-172 (ElemModel.forward_pass); reevaluation of an
    existing node gives the same (C23, C29) *)
Fixpoint eval (env : nat -> tens T) (e : expr) : res (tens T) :=
  match e with
  | EVar v => Ok (env v)
  | EConst t => Ok t
  | EUn op a =>
    ta <- eval env a ;;
    forward_pass fresh elementary_shaper (transform_fwd (fwd_lambda N op)) [ta] None
  | EBin op a b =>
    ta <- eval env a ;;
    tb <- eval env b ;;
    forward_pass fresh elementary_shaper (binary_elem (bop_lambda N op)) [ta; tb] None
  | EEq a b => (* elementary.ipp:1186-1192, 1209-1212 *)
    ta <- eval env a ;;
    tb <- eval env b ;;
    forward_pass fresh elementary_shaper (binary_elem (fun x y => if n_eqb N x y then one else zero)) [ta; tb] None
  | ETr a => (* transform.ipp:39-81 *)
    ta <- eval env a ;;
    forward_pass fresh (shaper1 (transpose_shape (0, 1))) (forward1 (transpose_fwd (0, 1))) [ta] None
  | ESum a => (* transform.ipp:280-293, 321-328 *)
    ta <- eval env a ;;
    forward_pass fresh (shaper1 (fun s => Ok (compress_all_shape s))) (forward1 (fun _ => compress_all_fwd (n_add N))) [ta] None
  | EMax a => (* transform.ipp:280-293, 311-318 *)
    ta <- eval env a ;;
    forward_pass fresh (shaper1 (fun s => Ok (compress_all_shape s))) (forward1 (fun _ => compress_all_fwd n_max)) [ta] None
  | ESumAx axis a => (* transform.ipp:204-278, 321-328 *)
    ta <- eval env a ;;
    forward_pass fresh (shaper1 (compress_shape axis)) (forward1 (compress_fwd (n_add N) axis)) [ta] None
  | EMat _ _ a b => (* matmul.ipp:277-351 *)
    ta <- eval env a ;;
    tb <- eval env b ;;
    forward_pass fresh mat_shaper mat_forward [ta; tb] None
  | EAxB axis a b => (* elementary.ipp:1881-1889 *)
    ta <- eval env a ;;
    tb <- eval env b ;;
    forward_pass fresh (binary_axial_shape axis false) (binary_axial (n_add N) axis false) [ta; tb] None
  end.

(** the common tail of the unary builders: fold a constant, otherwise a new node *)
Definition fold_node (op : @uop T) (a : expr) : expr :=
  match a with
  | EConst t => EConst (fst t, map (const_lambda N op) (snd t))
  | _ => EUn op a
  end.
(** elementary.ipp:476-520 operator - (node) *)
Definition mk_neg (a : expr) : expr :=
  match a with EUn UNeg c => c | _ => fold_node UNeg a end.

(** the unary builders with their shortcuts (lines as in ElemModel.build_unary) *)
Definition mk_unary (op : @uop T) (a : expr) : res expr :=
  match op with
  | UNeg => Ok (mk_neg a)
  | UPow s =>
    if n_eqb N s zero then Ok (EConst (const_scalar one))
    else if n_eqb N s one then Ok a
    else Ok (fold_node op a)
  | UAddL c =>
    if n_eqb N c zero then Ok a
    else match a with
         | EConst t => if const_is N t zero then Ok (EConst (const_scalar c)) else Ok (fold_node op a)
         | _ => Ok (fold_node op a)
         end
  | UAddR c =>
    match a with
    | EConst t => if const_is N t zero then Ok (EConst (const_scalar c)) else Ok (fold_node op a)
    | _ => if n_eqb N c zero then Ok a else Ok (fold_node op a)
    end
  | USubL c =>
    if n_eqb N c zero then Ok (mk_neg a)
    else match a with
         | EConst t => if const_is N t zero then Ok (EConst (const_scalar c)) else Ok (fold_node op a)
         | _ => Ok (fold_node op a)
         end
  | USubR c =>
    match a with
    | EConst t => if const_is N t zero then Ok (EConst (const_scalar (n_neg N c))) else Ok (fold_node op a)
    | _ => if n_eqb N c zero then Ok a else Ok (fold_node op a)
    end
  | UMulL c | UMulR c =>
    match a with
    | EConst t =>
      if const_is N t zero || n_eqb N zero c then Ok (EConst (const_scalar zero))
      else if const_is N t one then Ok (EConst (const_scalar c))
      else Ok (fold_node op a)
    | _ =>
      if n_eqb N zero c then Ok (EConst (const_scalar zero))
      else if n_eqb N one c then Ok a
      else if n_eqb N (n_neg N one) c then Ok (mk_neg a)
      else Ok (fold_node op a)
    end
  | UDivL c =>
    match a with
    | EConst t =>
      if const_is N t zero then Throw
      else if const_is N t one then Ok (EConst (const_scalar c))
      else Ok (fold_node op a)
    | _ => if n_eqb N c zero then Ok (EConst (const_scalar zero)) else Ok (fold_node op a)
    end
  | UDivR c =>
    match a with
    | EConst t => if const_is N t zero then Ok (EConst (const_scalar zero)) else Ok (fold_node op a)
    | _ =>
      if n_eqb N c zero then Throw
      else if n_eqb N c one then Ok a
      else Ok (fold_node op a)
    end
  | _ => Ok (fold_node op a)
  end.

(** the constant operand of a binary helper: none, zero, another one-element constant *)
Inductive cview := CNone | CZero | COne (v : T).
Definition cview_of (a : expr) : cview :=
  match a with
  | EConst t =>
    if const_is N t zero then CZero
    else if one_elem t then match snd t with v :: _ => COne v | [] => CNone end
    else CNone
  | _ => CNone
  end.

(** elementary.ipp:168-363: add_helper, sub_helper, mul_helper, div_helper *)
Definition mk_binary (op : bop) (a b : expr) : res expr :=
  match op with
  | BAdd =>
    match cview_of a with
    | CZero => Ok b
    | COne c => mk_unary (UAddL c) b
    | CNone =>
      match cview_of b with
      | CZero => Ok a
      | COne c => mk_unary (UAddR c) a
      | CNone => Ok (EBin BAdd a b)
      end
    end
  | BSub =>
    if same a b then Ok (EConst (const_scalar zero))
    else match cview_of a with
    | CZero => mk_unary UNeg b
    | COne c => mk_unary (USubL c) b
    | CNone =>
      match cview_of b with
      | CZero => Ok a
      | COne c => mk_unary (USubR c) a
      | CNone => Ok (EBin BSub a b)
      end
    end
  | BMul =>
    if same a b then mk_unary (UPow (n_two N)) a
    else match cview_of a with
    | CZero => Ok (EConst (const_scalar zero))
    | COne c => mk_unary (UMulL c) b
    | CNone =>
      match cview_of b with
      | CZero => Ok (EConst (const_scalar zero))
      | COne c => mk_unary (UMulR c) a
      | CNone => Ok (EBin BMul a b)
      end
    end
  | BDiv =>
    if same a b then Ok (EConst (const_scalar one))
    else match cview_of a with
    | CZero => Ok (EConst (const_scalar zero))
    | COne c => mk_unary (UDivL c) b
    | CNone =>
      match cview_of b with
      | CZero => Throw
      | COne c => mk_unary (UDivR c) a
      | CNone => Ok (EBin BDiv a b)
      end
    end
  end.

(** the backward function of each unary operation; [a] is the argument, [g] its gradient *)
Definition back_unary (op : @uop T) (a g : expr) : res expr :=
  match op with
  | UAbs => (* elementary.ipp:466-470: +grad *)
    mk_unary UAbs g
  | UNeg => (* 510-514 *)
    mk_unary UNeg g
  | USin => (* 547-553: grad * cos(a) *)
    c <- mk_unary UCos a ;; mk_binary BMul g c
  | UCos => (* 585-591: -grad * sin(a) *)
    ng <- mk_unary UNeg g ;; s <- mk_unary USin a ;; mk_binary BMul ng s
  | UTan => (* 623-631: grad / (denom * denom), denom = cos(a) *)
    denom <- mk_unary UCos a ;; d <- mk_binary BMul denom denom ;; mk_binary BDiv g d
  | UCsc => (* 663-670: -grad / (sin(a) * tan(a)) *)
    ng <- mk_unary UNeg g ;; s <- mk_unary USin a ;; t <- mk_unary UTan a ;;
    d <- mk_binary BMul s t ;; mk_binary BDiv ng d
  | USec => (* 702-709: grad * tan(a) / cos(a) *)
    t <- mk_unary UTan a ;; m <- mk_binary BMul g t ;; c <- mk_unary UCos a ;; mk_binary BDiv m c
  | UCot => (* 741-748: -grad * b * b, b = csc(a) *)
    b <- mk_unary UCsc a ;; ng <- mk_unary UNeg g ;; m <- mk_binary BMul ng b ;; mk_binary BMul m b
  | UExp => (* 780-786: grad * exp(a) *)
    x <- mk_unary UExp a ;; mk_binary BMul g x
  | USqrt => (* 818-824: grad / (2 * sqrt(a)) *)
    r <- mk_unary USqrt a ;; d <- mk_unary (UMulL (n_two N)) r ;; mk_binary BDiv g d
  | URound => (* 856-861: round(grad) *)
    mk_unary URound g
  | ULog => (* 893-899: grad / a *)
    mk_binary BDiv g a
  | UPow s => (* 939-945: s * grad * pow(a, s-1) *)
    m <- mk_unary (UMulL s) g ;; p <- mk_unary (UPow (n_sub N s one)) a ;; mk_binary BMul m p
  | UClip lo hi => (* 987-992: grad * clip_val(a, min, max) with min and max in order *)
    let '(lo, hi) := clip_order N lo hi in
    c <- mk_unary (UClip lo hi) a ;; mk_binary BMul g c
  | UCondL _ compare => (* 1121-1126 *)
    mk_unary (UCondL zero compare) g
  | UCondR compare _ => (* 1160-1165 *)
    mk_unary (UCondR compare zero) g
  | UAddL _ | UAddR _ => (* 1369-1374, 1414-1419 *)
    Ok g
  | USubL _ => (* 1493-1498 *)
    mk_unary UNeg g
  | USubR _ => (* 1538-1543 *)
    Ok g
  | UMulL c => (* 1625-1630: a * grad *)
    mk_unary (UMulL c) g
  | UMulR c => (* 1678-1683: b * grad, scalar on the left *)
    mk_unary (UMulL c) g
  | UDivL c => (* 1768-1774: -a * bg / (b * b) *)
    m <- mk_unary (UMulL (n_neg N c)) g ;; d <- mk_binary BMul a a ;; mk_binary BDiv m d
  | UDivR c => (* 1819-1824: ag / b *)
    mk_unary (UDivR c) g
  end.

(** the backward function of each binary operation *)
Definition back_binary (op : bop) (a b ag bg : expr) : res expr :=
  match op with
  | BAdd => (* 1446-1452 *)
    mk_binary BAdd ag bg
  | BSub => (* 1570-1576 *)
    mk_binary BSub ag bg
  | BMul => (* 1710-1718: ag * b + bg * a *)
    x <- mk_binary BMul ag b ;; y <- mk_binary BMul bg a ;; mk_binary BAdd x y
  | BDiv => (* 1850-1859: (ag * b - bg * a) / (b * b) *)
    x <- mk_binary BMul ag b ;; y <- mk_binary BMul bg a ;; n <- mk_binary BSub x y ;;
    d <- mk_binary BMul b b ;; mk_binary BDiv n d
  end.

(** elementary.ipp:1881-1896: add_axial_b through add_helper (168-204) *)
Definition mk_axb (axis : nat) (a b : expr) : res expr :=
  match cview_of a with
  | CZero => Ok b
  | COne c => mk_unary (UAddL c) b
  | CNone =>
    match cview_of b with
    | CZero => Ok a
    | COne c => mk_unary (UAddR c) a
    | CNone => Ok (EAxB axis a b)
    end
  end.

(** transform.ipp:17-37: transposing twice gives back the argument *)
Definition mk_tr (a : expr) : expr := match a with ETr c => c | _ => ETr a end.

(** matmul.ipp:244-277. Reuse of an existing product node of the same arguments is left out:
    the node it returns is the same except for the flags it was built with. *)
Definition mk_mat (a b : expr) (tA tB : bool) : expr :=
  EMat tA tB (if tA then mk_tr a else a) (if tB then mk_tr b else b).

(** base_immutable.ipp:170-185: the leaves of a node are the keys of gcache_ *)
Fixpoint has_leaf (w : nat) (e : expr) : bool :=
  match e with
  | EVar v => v =? w
  | EConst _ => false
  | EUn _ a | ETr a | ESum a | EMax a | ESumAx _ a => has_leaf w a
  | EBin _ a b | EEq a b | EMat _ _ a b | EAxB _ a b => has_leaf w a || has_leaf w b
  end.

(** an entry of a Jacobian list: the function and its origin node (iconnector.ipp:349), for a
    product its arguments together with their gradients (iconnector.ipp:282-291: gradients are
    cached, so they are the same whenever they are taken) *)
Inductive jentry :=
| JMat (tA tB : bool) (a b : expr) (ga gb : res expr)
| JSumAx (axis : nat).
(** iconnector.ipp:345-352 for one variable; the uid is created with the first entry
    (iconnector.ipp:154-170), by the node that is recorded here *)
Record jlist := mkJ { j_uid : expr; j_list : list jentry; j_term : bool }.

(** iconnector.ipp:199-230: the list a new node takes over from its arguments. (Visiting an
    argument a second time changes nothing: the uids agree.) *)
Definition inherit (acc arg : option jlist) : option jlist :=
  match arg with
  | Some j =>
    match j_list j with
    | [] => acc
    | _ :: _ =>
      match acc with
      | None => Some (mkJ (j_uid j) (j_list j) false)
      | Some k => if same (j_uid j) (j_uid k) then acc else Some (mkJ (j_uid k) [] true)
      end
    end
  | None => acc
  end.
Definition terminal (j : option jlist) : bool := match j with Some k => j_term k | None => false end.
(** iconnector.ipp:154-170; [self] is the node *)
Definition push_back (self : expr) (en : jentry) (j : option jlist) : option jlist :=
  match j with
  | Some k => Some (mkJ (j_uid k) (j_list k ++ [en]) (j_term k))
  | None => Some (mkJ self [en] false)
  end.
Definition push_front (self : expr) (en : jentry) (j : option jlist) : option jlist :=
  match j with
  | Some k => Some (mkJ (j_uid k) (en :: j_list k) (j_term k))
  | None => Some (mkJ self [en] false)
  end.

Definition is_zero_const (e : expr) : bool := match e with EConst t => const_is N t zero | _ => false end.

Section Derive.
(** the current values: a product node that is built is queued for evaluation
    (immutable.ipp:85-87, base_immutable.ipp:135-174), so one whose arguments do not fit
    throws at the next reading of the graph, even if it is not used. Here it throws at once. *)
Context (env : nat -> tens T).

(** matmul.ipp:375-400 and elementary.ipp:379-383 applied to [root] *)
Definition jac_step (en : jentry) (root : expr) : res expr :=
  match en with
  | JMat tA tB a b ga gb =>
    ga <- ga ;; gb <- gb ;;
    if is_zero_const ga && is_zero_const gb then Ok root
    else
      let mA := mk_mat root b false true in
      let mB := mk_mat a root true false in
      _ <- eval env mA ;; _ <- eval env mB ;;
      let mA := if tA then mk_tr mA else mA in
      let mB := if tB then mk_tr mB else mB in
      _ <- eval env mA ;; _ <- eval env mB ;;
      x <- mk_binary BMul mA ga ;; y <- mk_binary BMul mB gb ;; mk_binary BAdd x y
  | JSumAx axis => Ok (ESumAx axis root)
  end.
(** iconnector.ipp:270-295 jacobian_call: the list is applied from its end *)
Definition jac_call (l : list jentry) (root : expr) : res expr :=
  fold_right (fun en r => x <- r ;; jac_step en x) (Ok root) l.

(** what is known of a node for one variable: its gradient and its Jacobian list *)
Definition ginfo := (res expr * option jlist)%type.
(** base_immutable.ipp:61-67 derive with respect to a variable; ivariable.ipp:59-67 *)
Definition derive_of (g : ginfo) : res expr :=
  x <- fst g ;;
  match snd g with
  | Some j => jac_call (j_list j) x
  | None => Ok x
  end.

(** get_gradient: base_immutable.ipp:219-232 with immutable.ipp:174-193 backward_pass,
    variable.ipp:206-214, constant.ipp:56-60, placeholder.ipp:105-109 *)
Fixpoint info (w : nat) (e : expr) : ginfo :=
  let zero_grad : res expr := Ok (EConst (const_scalar zero)) in
  (* backward_pass: the gradient of an argument, through derive if the node is terminal *)
  let arg (term : bool) (g : ginfo) : res expr := if term then derive_of g else fst g in
  match e with
  | EVar v => (Ok (EConst (const_scalar (if v =? w then one else zero))), None)
  | EConst _ => (zero_grad, None)
  | EUn op a =>
    let ia := info w a in
    let j := inherit None (snd ia) in
    ((if has_leaf w a then g <- arg (terminal j) ia ;; back_unary op a g else zero_grad), j)
  | EBin op a b =>
    let ia := info w a in
    let ib := info w b in
    let j := inherit (inherit None (snd ia)) (snd ib) in
    ((if has_leaf w a || has_leaf w b then
        ag <- arg (terminal j) ia ;; bg <- arg (terminal j) ib ;; back_binary op a b ag bg
      else zero_grad), j)
  | ETr a => (* transform.ipp:82-86 *)
    let ia := info w a in
    let j := inherit None (snd ia) in
    ((if has_leaf w a then g <- arg (terminal j) ia ;; Ok (mk_tr g) else zero_grad), j)
  | ESum a | EMax a => (* transform.ipp:295-307 without index *)
    let ia := info w a in
    let j := inherit None (snd ia) in
    ((if has_leaf w a then arg (terminal j) ia else zero_grad), j)
  | EMat tA tB a b => (* matmul.ipp:352-402 *)
    let ia := info w a in
    let ib := info w b in
    let j := inherit (inherit None (snd ia)) (snd ib) in
    if has_leaf w a || has_leaf w b then
      (Ok (EEq e e), push_back e (JMat tA tB a b (fst ia) (fst ib)) j)
    else (zero_grad, j)
  | EAxB axis a b => (* elementary.ipp:1890-1896, 194-205, 365-385 *)
    let ia := info w a in
    let ib := info w b in
    let j := inherit (inherit None (snd ia)) (snd ib) in
    let j' := if has_leaf w b then push_front e (JSumAx axis) j else j in
    ((if has_leaf w a || has_leaf w b then
        ag <- arg (terminal j') ia ;; bg <- arg (terminal j') ib ;; mk_axb axis ag bg
      else zero_grad), j')
  | EEq a b => (* derivatives of these with respect to one of their leaves are not modelled *)
    ((if has_leaf w a || has_leaf w b then UB else zero_grad), None)
  | ESumAx _ a =>
    ((if has_leaf w a then UB else zero_grad), None)
  end.

(** the gradient node (gcache_) and the result of derive with respect to a variable *)
Definition grad (w : nat) (e : expr) : res expr := fst (info w e).
Definition derive (w : nat) (e : expr) : res expr := derive_of (info w e).
End Derive.

(** derive with respect to an operation node of the same graph, base_immutable.ipp:70-79,
    262-293 (temporary_eval): the node's own forward function with the target replaced by the
    constant 1. Arguments that do not lead to the target are kept; copying a node keeps its
    value. [is_target] is the pointer comparison with the target. *)
Fixpoint temp_eval (is_target : expr -> bool) (e : expr) : expr :=
  if is_target e then EConst (const_scalar one)
  else match e with
       | EUn op a => EUn op (temp_eval is_target a)
       | EBin op a b => EBin op (temp_eval is_target a) (temp_eval is_target b)
       | EEq a b => EEq (temp_eval is_target a) (temp_eval is_target b)
       | ETr a => ETr (temp_eval is_target a)
       | ESum a => ESum (temp_eval is_target a)
       | EMax a => EMax (temp_eval is_target a)
       | ESumAx axis a => ESumAx axis (temp_eval is_target a)
       | EMat tA tB a b => EMat tA tB (temp_eval is_target a) (temp_eval is_target b)
       | EAxB axis a b => EAxB axis (temp_eval is_target a) (temp_eval is_target b)
       | _ => e
       end.
End Grad.
