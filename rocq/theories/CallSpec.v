(** Specification vocabulary for calling training functions. *)
From Coq Require Import Reals.
From Verif Require Import Common ShapeModel ElemModel RealNum GradModel GroupModel EvalModel EvalSpec TrainSpec CallModel.

Definition target {V} (c : closure V) : list nat := match c with KNone => [] | KData w _ | KNode w _ _ => [w] end.

(** two operations of one graph: joined by a chain of operations each an argument of the other
    (which is what freezing acts on) *)
Inductive linked {V} (s : estate V) : nat -> nat -> Prop :=
| link_self a args f : operation s a args f -> linked s a a
| link_arg a b args f args' f' : operation s a args f -> operation s b args' f' -> In a args' -> linked s a b
| link_sym a b : linked s a b -> linked s b a
| link_trans a b c : linked s a b -> linked s b c -> linked s a c.

Section Shows.
Context (fresh : nat -> R) (use : bool) (loc : nat -> nat).
Local Notation graph := (estate (tens R)).
Definition gresult (e : @gexpr R) : option (tens R) := match geval Rnum fresh use INR nothing e with Ok t => Some t | _ => None end.
(** node [n] applies the operation [k] to nodes with [P] (and [Q]) *)
Definition applies1 (s : graph) (n : nat) (k : @gexpr R -> @gexpr R) (P : nat -> Prop) : Prop :=
  exists a f, operation s n [a] f /\ (forall x, f [x] = gresult (k (GConst x))) /\ P a.
Definition applies2 (s : graph) (n : nat) (k : @gexpr R -> @gexpr R -> @gexpr R) (P Q : nat -> Prop) : Prop :=
  exists a b f, operation s n [a; b] f /\ (forall x y, f [x; y] = gresult (k (GConst x) (GConst y))) /\ P a /\ Q b.
(** node [n] of the graph is the root of expression [e], in which [GVar v] stands for node
    [loc v]; constants are other leaves *)
Fixpoint gshows (s : graph) (n : nat) (e : @gexpr R) : Prop :=
  match e with
  | GVar v => n = loc v
  | GConst t => leaf s n /\ val s n = Some t /\ forall v, loc v <> n
  | GUn op a => applies1 s n (GUn op) (fun m => gshows s m a)
  | GTr a => applies1 s n GTr (fun m => gshows s m a)
  | GSum x a => applies1 s n (GSum x) (fun m => gshows s m a)
  | GMax x a => applies1 s n (GMax x) (fun m => gshows s m a)
  | GGrp x a => applies1 s n (GGrp x) (fun m => gshows s m a)
  | GSize x a => applies1 s n (GSize x) (fun m => gshows s m a)
  | GExt i m a => applies1 s n (GExt i m) (fun m => gshows s m a)
  | GFlip l a => applies1 s n (GFlip l) (fun m => gshows s m a)
  | GNorm a => applies1 s n GNorm (fun m => gshows s m a)
  | GBin op a b => applies2 s n (GBin op) (fun m => gshows s m a) (fun m => gshows s m b)
  | GAx op l x a b => applies2 s n (GAx op l x) (fun m => gshows s m a) (fun m => gshows s m b)
  | GEq a b => applies2 s n GEq (fun m => gshows s m a) (fun m => gshows s m b)
  | GMat tA tB a b => applies2 s n (GMat tA tB) (fun m => gshows s m a) (fun m => gshows s m b)
  end.
End Shows.
