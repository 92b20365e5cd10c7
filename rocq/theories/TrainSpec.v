(** Specification vocabulary for training. *)
From Coq Require Import Reals.
From Verif Require Import Common EvalModel EvalSpec UpdaterModel ElemModel RealNum GradModel.

(** two nodes are computed from a common operation (so that they are in the same graph) *)
Definition connected {V} (s : estate V) (a b : nat) : Prop :=
  exists c args f, operation s c args f /\ upstream s c a /\ upstream s c b.
(** reached by building, assigning with notification, evaluating, freezing and unfreezing *)
Definition history {V} compat ord top (s : estate V) : Prop :=
  exists ops, run compat ord top einit ops = Done s tt /\ Forall plain ops.
(** the leaves of [s'] are those of [s] except for the two given ones *)
Definition fed {V} (s s' : estate V) (i o : nat) (x y : V) : Prop :=
  nodes s' = nodes s /\ val s' o = Some y /\ (i <> o -> val s' i = Some x) /\
  forall v, leaf s v -> v <> i -> v <> o -> val s' v = val s v.

(** variable_updater of assign_sub on tensors of real numbers (variable.ipp:157-195 with
    tensor_handler.ipp:102-115): elementwise in storage order, sizes must agree *)
Definition tensor_sub (a b : tens R) : option (tens R) :=
  if (length (snd b) =? length (snd a))%nat then Some (fst a, map (fun p => fst p - snd p)%R (combine (snd a) (snd b))) else None.

Section Shows.
Context {T : Type} (N : num T) (fresh : nat -> T) (use : bool) (loc : nat -> nat).
Local Notation graph := (estate (tens T)).
Definition nothing : nat -> tens T := fun _ => ([], []).
Definition result_of (e : @expr T) : option (tens T) := match eval N fresh use nothing e with Ok t => Some t | _ => None end.
(** node [n] applies the operation [k] to a node with [P] *)
Definition node1 (s : graph) (n : nat) (k : @expr T -> @expr T) (P : nat -> Prop) : Prop :=
  exists a f, operation s n [a] f /\ (forall x, f [x] = result_of (k (EConst x))) /\ P a.
Definition node2 (s : graph) (n : nat) (k : @expr T -> @expr T -> @expr T) (P Q : nat -> Prop) : Prop :=
  exists a b f, operation s n [a; b] f /\ (forall x y, f [x; y] = result_of (k (EConst x) (EConst y))) /\ P a /\ Q b.
(** node [n] of the graph is the root of expression [e]; variable [v] is the leaf [loc v] and
    constants are other leaves *)
Fixpoint shows (s : graph) (n : nat) (e : @expr T) : Prop :=
  match e with
  | EVar v => n = loc v /\ leaf s n
  | EConst t => leaf s n /\ val s n = Some t /\ forall v, loc v <> n
  | EUn op a => node1 s n (EUn op) (fun m => shows s m a)
  | ETr a => node1 s n ETr (fun m => shows s m a)
  | ESum a => node1 s n ESum (fun m => shows s m a)
  | EMax a => node1 s n EMax (fun m => shows s m a)
  | ESumAx x a => node1 s n (ESumAx x) (fun m => shows s m a)
  | EBin op a b => node2 s n (EBin op) (fun m => shows s m a) (fun m => shows s m b)
  | EEq a b => node2 s n EEq (fun m => shows s m a) (fun m => shows s m b)
  | EMat tA tB a b => node2 s n (EMat tA tB) (fun m => shows s m a) (fun m => shows s m b)
  | EAxB x a b => node2 s n (EAxB x) (fun m => shows s m a) (fun m => shows s m b)
  end.
(** the values of the variables *)
Definition leaf_env (s : graph) (v : nat) : tens T := match val s (loc v) with Some t => t | None => ([], []) end.
(** the same with the placeholders [i] and [o] fed with [x] and [y] *)
Definition fed_env (s : graph) (i o : nat) (x y : tens T) (v : nat) : tens T :=
  if (v =? i)%nat then x else if (v =? o)%nat then y else leaf_env s v.
End Shows.
