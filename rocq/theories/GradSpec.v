(** What it means for a gradient graph to be right. *)
From Coq Require Import Reals ZArith.
From Verif Require Import Common ShapeModel ElemModel RealNum NumSpec GradModel.
Local Open Scope R_scope.

(** element i of a tensor; a one-element tensor stands for all positions *)
Definition at_ (t : tens R) (i : nat) : R := match snd t with [x] => x | l => nth i l 0 end.
(** element i of the value of a node *)
Definition elem (r : res (tens R)) (i : nat) : R := match r with Ok t => at_ t i | _ => 0 end.

(** a tensor of shape s, or of a single element *)
Definition fits (s : shape) (t : tens R) : Prop :=
  is_fully_defined (fst t) = true /\ length (snd t) = n_elems (fst t) /\ (fst t = s \/ n_elems (fst t) = 1%nat).

(** an elementwise expression every variable and constant of which has shape s or a single element *)
Fixpoint leaves_fit (s : shape) (env : nat -> tens R) (e : @expr R) : Prop :=
  match e with
  | EVar v => fits s (env v)
  | EConst t => fits s t
  | EUn _ a => leaves_fit s env a
  | EBin _ a b => leaves_fit s env a /\ leaves_fit s env b
  | _ => False
  end.

(** variable w with its element at position i (its only element, if it has one) set to r *)
Definition set_elem (env : nat -> tens R) (w i : nat) (r : R) : nat -> tens R := fun v =>
  if (v =? w)%nat then
    (fst (env w), match snd (env w) with [_] => [r] | l => set_nth i r l end)
  else env v.

(** the ordinary real function the expression stands for at position i *)
Fixpoint den (i : nat) (rho : nat -> R) (e : @expr R) : R :=
  match e with
  | EVar v => rho v
  | EConst t => at_ t i
  | EUn op a => meaning Rnum op (den i rho a)
  | EBin op a b => bmeaning Rnum op (den i rho a) (den i rho b)
  | _ => 0
  end.

(** where a unary operation is differentiable (False for abs, round, clip and comparisons,
    which are treated separately) *)
Definition smooth_at (op : @uop R) (y : R) : Prop :=
  match op with
  | UNeg | USin | UCos | UExp | UAddL _ | UAddR _ | USubL _ | USubR _ | UMulL _ | UMulR _ => True
  | UTan | USec => cos y <> 0
  | UCsc => sin y <> 0 /\ cos y <> 0
  | UCot => sin y <> 0
  | USqrt | ULog => 0 < y
  | UPow s => 0 < y \/ exists z, s = IZR z /\ ((0 <= z)%Z \/ y <> 0)
  | UDivL _ => y <> 0
  | UDivR c => c <> 0
  | UAbs | URound | UClip _ _ | UCondL _ _ | UCondR _ _ => False
  end.

(** the expression is defined and differentiable at position i for these leaf values *)
Fixpoint regular (i : nat) (rho : nat -> R) (e : @expr R) : Prop :=
  match e with
  | EVar _ | EConst _ => True
  | EUn op a => regular i rho a /\ smooth_at op (den i rho a)
  | EBin op a b => regular i rho a /\ regular i rho b /\ (op = BDiv -> den i rho b <> 0)
  | _ => False
  end.
