(** Model of gradient construction for all operations with a derivative that keeps a node
    alive: GradModel.v extended by reductions along an axis, the "grouping" metadata they give
    to gradients, the axial operations that this metadata selects, reduce_mean, extend, flip
    and l2norm. Nodes are expression trees. fit, arg_max, cross_corr2d and clip_norm
    are in OtherGradModel. Not modelled: binomial_sample; the sharing of one identity node by two reductions of the
    same argument along different axes. *)
From Coq Require Import String.
From Verif Require Import Common ShapeModel TransformModel MatmulModel ElemModel GradModel CseModel.

Section Group.
(** as in GradModel and CseModel *)
Context {T : Type} (N : num T) (fresh : nat -> T) (strassen_on : bool) (of_nat : nat -> T).
Notation zero := (n_zero N).
Notation one := (n_one N).

Inductive gexpr :=
| GVar (v : nat)
| GConst (t : tens T)
| GUn (op : @uop T) (a : gexpr)
| GBin (op : bop) (a b : gexpr)
| GAx (op : bop) (lft : bool) (axis : nat) (a b : gexpr) (* add_axial_a (lft), add_axial_b, ... *)
| GEq (a b : gexpr)                       (* eq(a, b) *)
| GTr (a : gexpr)                         (* transpose(a, {0, 1}) *)
| GSum (axis : option nat) (a : gexpr)    (* reduce_sum *)
| GMax (axis : option nat) (a : gexpr)    (* reduce_max *)
| GMat (tA tB : bool) (a b : gexpr)       (* matmul, as in GradModel *)
| GGrp (axis : nat) (a : gexpr)           (* identity(a) whose metadata "grouping" is axis *)
| GSize (axis : option nat) (a : gexpr)   (* the shape_dep node of reduce_mean *)
| GExt (index multiplier : nat) (a : gexpr) (* extend *)
| GFlip (dims : list nat) (a : gexpr)     (* flip *)
| GNorm (a : gexpr).                      (* l2norm *)

(** pointer comparison of two nodes, as in GradModel *)
Context (same : gexpr -> gexpr -> bool).

(** value of a node: the forward functions of CseModel.sem, each cited there *)
Fixpoint geval (env : nat -> tens T) (e : gexpr) : res (tens T) :=
  let sem := sem N fresh strassen_on of_nat in
  match e with
  | GVar v => Ok (env v)
  | GConst t => Ok t
  | GUn op a => ta <- geval env a ;; sem (KUn op) [ta]
  | GBin op a b => ta <- geval env a ;; tb <- geval env b ;; sem (KBin op) [ta; tb]
  | GAx op lft axis a b => ta <- geval env a ;; tb <- geval env b ;; sem (KAx op lft axis) [ta; tb]
  | GEq a b => (* elementary.ipp:1186-1192, 1209-1212 *)
    ta <- geval env a ;; tb <- geval env b ;;
    forward_pass fresh elementary_shaper (binary_elem (fun x y => if n_eqb N x y then one else zero)) [ta; tb] None
  | GTr a => ta <- geval env a ;; sem (KTr (0, 1)) [ta]
  | GSum axis a => ta <- geval env a ;; sem (KSum axis) [ta]
  | GMax axis a => ta <- geval env a ;; sem (KMax axis) [ta]
  | GMat tA tB a b => ta <- geval env a ;; tb <- geval env b ;; sem (KMat tA tB) [ta; tb]
  | GGrp _ a => ta <- geval env a ;; sem KId [ta]
  | GSize axis a => ta <- geval env a ;; sem (KSize axis) [ta]
  | GExt i m a => ta <- geval env a ;; sem (KExt i m) [ta]
  | GFlip dims a => ta <- geval env a ;; sem (KFlip dims) [ta]
  | GNorm a => ta <- geval env a ;; sem KNorm [ta]
  end.

(** the metadata "grouping" of a node: set by transform.ipp:304, taken over from the argument
    by the unary operations and conditional (inode.ipp:99-113, the calls of extract_metadata
    in elementary.ipp). identity overwrites what it took over. *)
Fixpoint grouping (e : gexpr) : option nat :=
  match e with
  | GGrp axis _ => Some axis
  | GUn _ a | GNorm a | GEq a _ => grouping a
  | _ => None
  end.

(** the common tail of the unary builders: fold a constant, otherwise a new node *)
Definition gfold (op : @uop T) (a : gexpr) : gexpr :=
  match a with
  | GConst t => GConst (fst t, map (const_lambda N op) (snd t))
  | _ => GUn op a
  end.
(** elementary.ipp:476-520 operator - (node) *)
Definition gneg (a : gexpr) : gexpr :=
  match a with GUn UNeg c => c | _ => gfold UNeg a end.

(** the unary builders with their shortcuts, as GradModel.mk_unary *)
Definition gunary (op : @uop T) (a : gexpr) : res gexpr :=
  match op with
  | UNeg => Ok (gneg a)
  | UPow s =>
    if n_eqb N s zero then Ok (GConst (const_scalar one))
    else if n_eqb N s one then Ok a
    else Ok (gfold op a)
  | UAddL c =>
    if n_eqb N c zero then Ok a
    else match a with
         | GConst t => if const_is N t zero then Ok (GConst (const_scalar c)) else Ok (gfold op a)
         | _ => Ok (gfold op a)
         end
  | UAddR c =>
    match a with
    | GConst t => if const_is N t zero then Ok (GConst (const_scalar c)) else Ok (gfold op a)
    | _ => if n_eqb N c zero then Ok a else Ok (gfold op a)
    end
  | USubL c =>
    if n_eqb N c zero then Ok (gneg a)
    else match a with
         | GConst t => if const_is N t zero then Ok (GConst (const_scalar c)) else Ok (gfold op a)
         | _ => Ok (gfold op a)
         end
  | USubR c =>
    match a with
    | GConst t => if const_is N t zero then Ok (GConst (const_scalar (n_neg N c))) else Ok (gfold op a)
    | _ => if n_eqb N c zero then Ok a else Ok (gfold op a)
    end
  | UMulL c | UMulR c =>
    match a with
    | GConst t =>
      if const_is N t zero || n_eqb N zero c then Ok (GConst (const_scalar zero))
      else if const_is N t one then Ok (GConst (const_scalar c))
      else Ok (gfold op a)
    | _ =>
      if n_eqb N zero c then Ok (GConst (const_scalar zero))
      else if n_eqb N one c then Ok a
      else if n_eqb N (n_neg N one) c then Ok (gneg a)
      else Ok (gfold op a)
    end
  | UDivL c =>
    match a with
    | GConst t =>
      if const_is N t zero then Throw
      else if const_is N t one then Ok (GConst (const_scalar c))
      else Ok (gfold op a)
    | _ => if n_eqb N c zero then Ok (GConst (const_scalar zero)) else Ok (gfold op a)
    end
  | UDivR c =>
    match a with
    | GConst t => if const_is N t zero then Ok (GConst (const_scalar zero)) else Ok (gfold op a)
    | _ =>
      if n_eqb N c zero then Throw
      else if n_eqb N c one then Ok a
      else Ok (gfold op a)
    end
  | _ => Ok (gfold op a)
  end.

(** the constant operand of a binary helper *)
Definition gview (a : gexpr) : @cview T :=
  match a with GConst t => cview_of N (EConst t) | _ => CNone end.

(** elementary.ipp:168-363: add_helper, sub_helper, mul_helper, div_helper. [ax] is left_axis:
    the plain operation, or the axial one whose argument a (true) or b (false) is the one to
    be spread *)
Definition gnode2 (op : bop) (ax : option (bool * nat)) (a b : gexpr) : gexpr :=
  match ax with None => GBin op a b | Some (lft, axis) => GAx op lft axis a b end.
Definition ghelper (op : bop) (ax : option (bool * nat)) (a b : gexpr) : res gexpr :=
  match op with
  | BAdd =>
    match gview a with
    | CZero => Ok b
    | COne c => gunary (UAddL c) b
    | CNone =>
      match gview b with
      | CZero => Ok a
      | COne c => gunary (UAddR c) a
      | CNone => Ok (gnode2 BAdd ax a b)
      end
    end
  | BSub =>
    if same a b then Ok (GConst (const_scalar zero))
    else match gview a with
    | CZero => gunary UNeg b
    | COne c => gunary (USubL c) b
    | CNone =>
      match gview b with
      | CZero => Ok a
      | COne c => gunary (USubR c) a
      | CNone => Ok (gnode2 BSub ax a b)
      end
    end
  | BMul =>
    if same a b then gunary (UPow (n_two N)) a
    else match gview a with
    | CZero => Ok (GConst (const_scalar zero))
    | COne c => gunary (UMulL c) b
    | CNone =>
      match gview b with
      | CZero => Ok (GConst (const_scalar zero))
      | COne c => gunary (UMulR c) a
      | CNone => Ok (gnode2 BMul ax a b)
      end
    end
  | BDiv =>
    if same a b then Ok (GConst (const_scalar one))
    else match gview a with
    | CZero => Ok (GConst (const_scalar zero))
    | COne c => gunary (UDivL c) b
    | CNone =>
      match gview b with
      | CZero => Throw
      | COne c => gunary (UDivR c) a
      | CNone => Ok (gnode2 BDiv ax a b)
      end
    end
  end.
(** elementary.ipp:1423-1453, 1547-1577, 1687-1719, 1828-1860: the operators +, -, *, / look at
    the metadata of their arguments *)
Definition gbinary (op : bop) (a b : gexpr) : res gexpr :=
  let ax := match grouping a, grouping b with
            | Some x, None => Some (false, x)
            | Some x, Some y => if x =? y then Some (false, x) else None
            | None, Some y => Some (true, y)
            | None, None => None
            end in
  ghelper op ax a b.
(** elementary.ipp:1862-2012 op_axial_a, op_axial_b *)
Definition gaxial (op : bop) (lft : bool) (axis : nat) (a b : gexpr) : res gexpr := ghelper op (Some (lft, axis)) a b.

(** transform.ipp:17-37 *)
Definition gtr (a : gexpr) : gexpr := match a with GTr c => c | _ => GTr a end.
(** matmul.ipp:244-277 *)
Definition gmat (a b : gexpr) (tA tB : bool) : gexpr :=
  GMat tA tB (if tA then gtr a else a) (if tB then gtr b else b).
(** transform.ipp:331-352 reduce_mean *)
Definition gmean (axis : option nat) (a : gexpr) : res gexpr := gbinary BDiv (GSum axis a) (GSize axis a).
(** transform.ipp:136-141 extend *)
Definition gext (index multiplier : nat) (a : gexpr) : gexpr :=
  match multiplier with
  | 0 => GConst (const_scalar zero)
  | 1 => a
  | _ => GExt index multiplier a
  end.
(** elementary.ipp:997-1010 l2norm: of a constant it is the sum of squares *)
Definition gnorm (a : gexpr) : gexpr :=
  match a with
  | GConst t => GConst (const_scalar (fold_left (fun s x => n_add N s (n_mul N x x)) (snd t) zero))
  | _ => GNorm a
  end.

(** the backward function of each unary operation, as GradModel.back_unary *)
Definition gback1 (op : @uop T) (a g : gexpr) : res gexpr :=
  match op with
  | UAbs => gunary UAbs g
  | UNeg => gunary UNeg g
  | USin => c <- gunary UCos a ;; gbinary BMul g c
  | UCos => ng <- gunary UNeg g ;; s <- gunary USin a ;; gbinary BMul ng s
  | UTan => denom <- gunary UCos a ;; d <- gbinary BMul denom denom ;; gbinary BDiv g d
  | UCsc =>
    ng <- gunary UNeg g ;; s <- gunary USin a ;; t <- gunary UTan a ;;
    d <- gbinary BMul s t ;; gbinary BDiv ng d
  | USec => t <- gunary UTan a ;; m <- gbinary BMul g t ;; c <- gunary UCos a ;; gbinary BDiv m c
  | UCot => b <- gunary UCsc a ;; ng <- gunary UNeg g ;; m <- gbinary BMul ng b ;; gbinary BMul m b
  | UExp => x <- gunary UExp a ;; gbinary BMul g x
  | USqrt => r <- gunary USqrt a ;; d <- gunary (UMulL (n_two N)) r ;; gbinary BDiv g d
  | URound => gunary URound g
  | ULog => gbinary BDiv g a
  | UPow s => m <- gunary (UMulL s) g ;; p <- gunary (UPow (n_sub N s one)) a ;; gbinary BMul m p
  | UClip lo hi =>
    let '(lo, hi) := clip_order N lo hi in
    c <- gunary (UClip lo hi) a ;; gbinary BMul g c
  | UCondL _ compare => gunary (UCondL zero compare) g
  | UCondR compare _ => gunary (UCondR compare zero) g
  | UAddL _ | UAddR _ => Ok g
  | USubL _ => gunary UNeg g
  | USubR _ => Ok g
  | UMulL c | UMulR c => gunary (UMulL c) g
  | UDivL c => m <- gunary (UMulL (n_neg N c)) g ;; d <- gbinary BMul a a ;; gbinary BDiv m d
  | UDivR c => gunary (UDivR c) g
  end.
(** of each binary operation, as GradModel.back_binary *)
Definition gback2 (op : bop) (a b ag bg : gexpr) : res gexpr :=
  match op with
  | BAdd => gbinary BAdd ag bg
  | BSub => gbinary BSub ag bg
  | BMul => x <- gbinary BMul ag b ;; y <- gbinary BMul bg a ;; gbinary BAdd x y
  | BDiv =>
    x <- gbinary BMul ag b ;; y <- gbinary BMul bg a ;; n <- gbinary BSub x y ;;
    d <- gbinary BMul b b ;; gbinary BDiv n d
  end.
(** of each axial operation, elementary.ipp:1872-2012 *)
Definition gbackax (op : bop) (lft : bool) (axis : nat) (a b ag bg : gexpr) : res gexpr :=
  match op with
  | BAdd => gaxial BAdd lft axis ag bg
  | BSub => gaxial BSub lft axis ag bg
  | BMul => x <- gaxial BMul lft axis ag b ;; y <- gaxial BMul lft axis a bg ;; gbinary BAdd x y
  | BDiv =>
    x <- gaxial BMul lft axis ag b ;; y <- gaxial BMul (negb lft) axis bg a ;; n <- gbinary BSub x y ;;
    d <- gunary (UPow (n_two N)) b ;; gbinary BDiv n d
  end.

(** base_immutable.ipp:170-185 *)
Fixpoint gleaf (w : nat) (e : gexpr) : bool :=
  match e with
  | GVar v => v =? w
  | GConst _ => false
  | GUn _ a | GTr a | GSum _ a | GMax _ a | GGrp _ a | GSize _ a | GExt _ _ a | GFlip _ a | GNorm a => gleaf w a
  | GBin _ a b | GAx _ _ _ a b | GEq a b | GMat _ _ a b => gleaf w a || gleaf w b
  end.

(** Jacobian lists, as in GradModel *)
Inductive gentry :=
| GJMat (tA tB : bool) (a b : gexpr) (ga gb : res gexpr)
| GJSum (axis : nat).
Record glist := mkGJ { gj_uid : gexpr; gj_list : list gentry; gj_term : bool }.
(** iconnector.ipp:199-230 *)
Definition ginherit (acc arg : option glist) : option glist :=
  match arg with
  | Some j =>
    match gj_list j with
    | [] => acc
    | _ :: _ =>
      match acc with
      | None => Some (mkGJ (gj_uid j) (gj_list j) false)
      | Some k => if same (gj_uid j) (gj_uid k) then acc else Some (mkGJ (gj_uid k) [] true)
      end
    end
  | None => acc
  end.
Definition gterminal (j : option glist) : bool := match j with Some k => gj_term k | None => false end.
(** iconnector.ipp:154-170 *)
Definition gpush_back (self : gexpr) (en : gentry) (j : option glist) : option glist :=
  match j with
  | Some k => Some (mkGJ (gj_uid k) (gj_list k ++ [en]) (gj_term k))
  | None => Some (mkGJ self [en] false)
  end.
Definition gpush_front (self : gexpr) (en : gentry) (j : option glist) : option glist :=
  match j with
  | Some k => Some (mkGJ (gj_uid k) (en :: gj_list k) (gj_term k))
  | None => Some (mkGJ self [en] false)
  end.
Definition gzero (e : gexpr) : bool := match e with GConst t => const_is N t zero | _ => false end.

Section Derive.
Context (env : nat -> tens T).

(** matmul.ipp:375-400 and elementary.ipp:379-383; as in GradModel, product nodes that do not
    fit throw at once *)
Definition gjac_step (en : gentry) (root : gexpr) : res gexpr :=
  match en with
  | GJMat tA tB a b ga gb =>
    ga <- ga ;; gb <- gb ;;
    if gzero ga && gzero gb then Ok root
    else
      let mA := gmat root b false true in
      let mB := gmat a root true false in
      _ <- geval env mA ;; _ <- geval env mB ;;
      let mA := if tA then gtr mA else mA in
      let mB := if tB then gtr mB else mB in
      _ <- geval env mA ;; _ <- geval env mB ;;
      x <- gbinary BMul mA ga ;; y <- gbinary BMul mB gb ;; gbinary BAdd x y
  | GJSum axis => Ok (GSum (Some axis) root)
  end.
(** iconnector.ipp:270-295 *)
Definition gjac_call (l : list gentry) (root : gexpr) : res gexpr :=
  fold_right (fun en r => x <- r ;; gjac_step en x) (Ok root) l.

Definition gginfo := (res gexpr * option glist)%type.
(** base_immutable.ipp:61-67, ivariable.ipp:59-67 *)
Definition gderive_of (g : gginfo) : res gexpr :=
  x <- fst g ;;
  match snd g with
  | Some j => gjac_call (gj_list j) x
  | None => Ok x
  end.

(** get_gradient: base_immutable.ipp:219-232 with immutable.ipp:174-193 backward_pass,
    variable.ipp:206-214, constant.ipp:56-60, placeholder.ipp:105-109, shape_dep.ipp:145-149 *)
Fixpoint ginfo (w : nat) (e : gexpr) : gginfo :=
  let zero_grad : res gexpr := Ok (GConst (const_scalar zero)) in
  let arg (term : bool) (g : gginfo) : res gexpr := if term then gderive_of g else fst g in
  (* an operation of one argument with backward function [back] *)
  let unary (a : gexpr) (ia : gginfo) (back : gexpr -> res gexpr) : gginfo :=
    let j := ginherit None (snd ia) in
    ((if gleaf w a then g <- arg (gterminal j) ia ;; back g else zero_grad), j) in
  match e with
  | GVar v => (Ok (GConst (const_scalar (if v =? w then one else zero))), None)
  | GConst _ => (zero_grad, None)
  | GUn op a => unary a (ginfo w a) (gback1 op a)
  | GBin op a b =>
    let ia := ginfo w a in
    let ib := ginfo w b in
    let j := ginherit (ginherit None (snd ia)) (snd ib) in
    ((if gleaf w a || gleaf w b then
        ag <- arg (gterminal j) ia ;; bg <- arg (gterminal j) ib ;; gback2 op a b ag bg
      else zero_grad), j)
  | GAx op lft axis a b => (* elementary.ipp:365-385, 1862-2012 *)
    let ia := ginfo w a in
    let ib := ginfo w b in
    let j := ginherit (ginherit None (snd ia)) (snd ib) in
    let j' := if gleaf w (if lft then a else b) then gpush_front e (GJSum axis) j else j in
    ((if gleaf w a || gleaf w b then
        ag <- arg (gterminal j') ia ;; bg <- arg (gterminal j') ib ;; gbackax op lft axis a b ag bg
      else zero_grad), j')
  | GTr a => unary a (ginfo w a) (fun g => Ok (gtr g)) (* transform.ipp:82-86 *)
  | GSum axis a | GMax axis a => (* transform.ipp:295-307 *)
    unary a (ginfo w a) (fun g => Ok (match axis with Some i => GGrp i g | None => g end))
  | GMat tA tB a b => (* matmul.ipp:352-402 *)
    let ia := ginfo w a in
    let ib := ginfo w b in
    let j := ginherit (ginherit None (snd ia)) (snd ib) in
    if gleaf w a || gleaf w b then
      (Ok (GEq e e), gpush_back e (GJMat tA tB a b (fst ia) (fst ib)) j)
    else (zero_grad, j)
  | GGrp _ a => unary a (ginfo w a) (fun g => Ok g) (* elementary.ipp:418-422 *)
  | GSize _ _ => (zero_grad, None) (* shape_dep.ipp:91, 145-149 *)
  | GExt _ _ a => unary a (ginfo w a) (fun g => Ok g) (* transform.ipp:184-188 *)
  | GFlip dims a => unary a (ginfo w a) (fun g => Ok (GFlip dims g)) (* transform.ipp:494-497 *)
  | GNorm a => unary a (ginfo w a) (fun g => Ok (gnorm g)) (* elementary.ipp:1031-1034 *)
  | GEq a b => (* derivatives of comparisons with respect to one of their leaves are not modelled *)
    ((if gleaf w a || gleaf w b then UB else zero_grad), None)
  end.

Definition ggrad (w : nat) (e : gexpr) : res gexpr := fst (ginfo w e).
Definition gderive (w : nat) (e : gexpr) : res gexpr := gderive_of (ginfo w e).
End Derive.

(** a node of GradModel.v as a node here *)
Fixpoint inj (e : @expr T) : gexpr :=
  match e with
  | EVar v => GVar v
  | EConst t => GConst t
  | EUn op a => GUn op (inj a)
  | EBin op a b => GBin op (inj a) (inj b)
  | EEq a b => GEq (inj a) (inj b)
  | ETr a => GTr (inj a)
  | ESum a => GSum None (inj a)
  | EMax a => GMax None (inj a)
  | ESumAx axis a => GSum (Some axis) (inj a)
  | EMat tA tB a b => GMat tA tB (inj a) (inj b)
  | EAxB axis a b => GAx BAdd false axis (inj a) (inj b)
  end.
End Group.
