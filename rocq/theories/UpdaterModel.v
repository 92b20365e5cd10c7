(** Model of the gradient descent updaters (app/tenncor/src/utils/gd_utils.cpp) and of the
    variable updaters they return (leaf/variable.ipp), on the evaluation graph of EvalModel.v.

    Simplifications. Tensors are of an abstract type [V] with abstract arithmetic; derive has already produced
    the gradient node. Every operator application makes a new node; the
    operators look first for an equal one among the dependents of their argument (C32). The
    scalars are such that the operators do build a node (they return a constant or the argument
    itself for the factors 0, 1 and -1 and the summand 0). *)
From Verif Require Import Common EvalModel.

(** tensor arithmetic used by the updaters; None where shapes do not fit *)
Record arith (V : Type) := mkArith {
  scale_lr : V -> V;              (* x * learning_rate_ *)
  scale_d : V -> V;               (* discount_factor_ * x *)
  scale_1d : V -> V;              (* (1 - discount_factor_) * x *)
  square : V -> V;                (* pow(x, 2) *)
  sqrt_ : V -> V;
  add_eps : V -> V;               (* x + epsilon_ *)
  add_ : V -> V -> option V;
  div_ : V -> V -> option V;
  sub_ : V -> V -> option V       (* assigner_ with e1 - e2 *)
}.
Arguments scale_lr {V}. Arguments scale_d {V}. Arguments scale_1d {V}. Arguments square {V}. Arguments sqrt_ {V}.
Arguments add_eps {V}. Arguments add_ {V}. Arguments div_ {V}. Arguments sub_ {V}.

Section U.
Context {V : Type} (compat : V -> V -> bool) (ord : list (enode V) -> nat -> list nat) (top : list (enode V) -> list nat -> option nat).
Context (A : arith V).

(** unary and binary elementary nodes as functions of the argument values *)
Definition fun1 (g : V -> V) (l : list V) : option V := match l with [x] => Some (g x) | _ => None end.
Definition fun2 (g : V -> V -> option V) (l : list V) : option V := match l with [x; y] => g x y | _ => None end.

(** variable.ipp:83-118 assign and 157-195 assign_sub: the returned updater, for an input that is
    not a constant *)
Definition call_updater (s : estate V) (f : V -> V -> option V) (w n : nat) (notify : bool) : out V (option V) :=
  obind (step compat ord top s (EEval n)) (fun s r =>
    match r, val s w with
    | Some x, Some y =>
      match f y x with
      | Some z => step compat ord top s (EAssign w z notify)
      | None => Bad
      end
    | _, _ => Bad
    end).

(** gd_utils.cpp:81-86 vgb_updater::process_update: the node built for the gradient node [g], then the call *)
Definition vgb_ops (g : nat) : list (eop V) := [EOp [g] (fun1 (scale_lr A))].
Definition vgb_call (s : estate V) (w n : nat) (notify : bool) : out V (option V) :=
  call_updater s (sub_ A) w n notify.

(** gd_utils.cpp:214-234 rmspropupdater::process_update. [n] is the number of nodes so far:
    n momentum, n+1 discount * momentum, n+2 pow(dres, 2), n+3 (1 - discount) * that,
    n+4 momentum_step, n+5 dres * learning_rate, n+6 sqrt(momentum_step), n+7 that + epsilon,
    n+8 leaf_step *)
Definition rms_ops (n g : nat) (one : V) : list (eop V) :=
  [ELeaf (Some one);
   EOp [n] (fun1 (scale_d A));
   EOp [g] (fun1 (square A));
   EOp [n + 2] (fun1 (scale_1d A));
   EOp [n + 1; n + 3] (fun2 (add_ A));
   EOp [g] (fun1 (scale_lr A));
   EOp [n + 4] (fun1 (sqrt_ A));
   EOp [n + 6] (fun1 (add_eps A));
   EOp [n + 5; n + 7] (fun2 (div_ A))].
Definition rms_call (s : estate V) (n w : nat) (notify : bool) : out V (option V) :=
  obind (call_updater s (fun _ x => Some x) n (n + 4) false) (fun s _ =>
    call_updater s (sub_ A) w (n + 8) notify).

(** a program that uses the graph and the updater of one variable *)
Inductive uop := UOp (o : eop V) | UCall.
Fixpoint rms_run (n w : nat) (s : estate V) (us : list uop) : out V unit :=
  match us with
  | [] => Done s tt
  | UOp o :: us => obind (step compat ord top s o) (fun s _ => rms_run n w s us)
  | UCall :: us => obind (rms_call s n w true) (fun s _ => rms_run n w s us)
  end.
(** updaters of several variables called one after the other: pairs of variable and node *)
Fixpoint vgb_calls (s : estate V) (l : list (nat * nat)) : out V unit :=
  match l with
  | [] => Done s tt
  | (w, n) :: l => obind (vgb_call s w n true) (fun s _ => vgb_calls s l)
  end.
End U.
Arguments UCall {V}. Arguments uop : clear implicits.

(** the classes of gd_utils.hpp, with ignored_; momentums_ is never copied (hpp:177-180) *)
Inductive kind := Vgb | Momentum | Adadelta | Adagrad | Rms.
Record updater := mkUpd { u_kind : kind; u_ignored : list nat; u_momentums : list nat }.
Section C.
(** get_leaves of a node, in hash order, and whether a leaf is a variable *)
Context (leaves_of : nat -> list nat) (is_var : nat -> bool).
Definition mem_nat (x : nat) (l : list nat) : bool := existsb (Nat.eqb x) l.
(** the variables of gd_utils.cpp:20-33; for each of these root->derive is called *)
Definition targets (u : updater) (root : nat) : list nat :=
  filter (fun l => is_var l && negb (mem_nat l (u_ignored u))) (leaves_of root).
(** gd_utils.cpp:20-40 calculate: the variables whose updaters are returned, and the updater
    afterwards; [fresh] is the first momentum variable *)
Definition calculate (u : updater) (root fresh : nat) : res (list nat * updater) :=
  let ws := targets u root in
  match u_kind u with
  | Vgb => Ok (ws, u)
  | Rms => Ok (ws, mkUpd Rms (u_ignored u) (u_momentums u ++ seq fresh (length ws)))
  | Momentum | Adadelta | Adagrad => match ws with [] => Ok ([], u) | _ :: _ => Throw end
  end.
(** gd_utils.cpp:42-52 ignore_subtree *)
Definition ignore_subtree (u : updater) (root : nat) : updater :=
  mkUpd (u_kind u) (filter is_var (leaves_of root) ++ u_ignored u) (u_momentums u).
(** gd_utils.cpp:54-57 clear_ignore *)
Definition clear_ignore (u : updater) : updater := mkUpd (u_kind u) [] (u_momentums u).
(** clone: gd_utils.cpp:14, 70-73, 204-207 *)
Definition clone_updater (u : updater) : updater := mkUpd (u_kind u) (u_ignored u) [].
End C.
