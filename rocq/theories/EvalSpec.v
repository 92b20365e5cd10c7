(** Specification vocabulary for evaluation. *)
From Coq Require Import Permutation.
From Verif Require Import Common EvalModel.

Section S.
Context {V : Type}.
Implicit Types s : estate V.

(** notification reaches each dependent once, in any order *)
Definition valid_order (ord : list (enode V) -> nat -> list nat) : Prop :=
  forall ns v, Permutation (ord ns v) (audience ns v).
(** the top of a priority queue: some element of smallest depth *)
Definition valid_top (top : list (enode V) -> list nat -> option nat) : Prop :=
  forall ns q, match top ns q with
               | None => q = []
               | Some v => In v q /\ forall w, In w q -> depth_of ns v <= depth_of ns w
               end.

(** node [v] is an operation on [args] with function [f] *)
Definition operation s v args f : Prop := exists d, nth_error (nodes s) v = Some (NOp args f d).
Definition leaf s v : Prop := nth_error (nodes s) v = Some NLeaf.

(** What a node stands for, given the values the leaves have now: a leaf its value (None
    when not initialised), an operation its function applied to what its arguments stand for, or None
    when one of these is None. *)
Inductive denotes s : nat -> option V -> Prop :=
| den_leaf v : leaf s v -> denotes s v (val s v)
| den_op v args f os vs x : operation s v args f -> Forall2 (denotes s) args os ->
    all_some os = Some vs -> f vs = Some x -> denotes s v (Some x)
| den_undef v args f os : operation s v args f -> Forall2 (denotes s) args os -> In None os -> denotes s v None.

(** [a] is [v] or something [v] is computed from *)
Inductive upstream s : nat -> nat -> Prop :=
| up_refl v : upstream s v v
| up_step v args f a b : operation s v args f -> In a args -> upstream s b a -> upstream s b v.

(** every assignment notifies and no operation node is cloned *)
Definition plain (o : eop V) : Prop :=
  match o with EClone _ => False | EAssign _ _ b => b = true | _ => True end.
Definition no_clone (o : eop V) : Prop := match o with EClone _ => False | _ => True end.
Definition no_freeze (o : eop V) : Prop := match o with EFreeze _ _ => False | _ => True end.

(** the arguments exist and are of the right kind *)
Definition callable s (o : eop V) : Prop :=
  match o with
  | ELeaf _ => True
  | EOp args _ => args <> [] /\ forall a, In a args -> a < length (nodes s)
  | EAssign x _ _ => leaf s x
  | EEval v | EShape v => v < length (nodes s)
  | EFreeze v _ | EClone v => exists args f, operation s v args f
  end.

(** operations with several arguments *)
Definition several s v : Prop := exists args f, operation s v args f /\ 1 < length args.

(** one admissible order of notification is that of construction, one admissible choice for the
    top of the queue is the first element of smallest depth; used in examples *)
Fixpoint least (ns : list (enode V)) (q : list nat) : option nat :=
  match q with
  | [] => None
  | v :: q => match least ns q with Some w => if depth_of ns w <? depth_of ns v then Some w else Some v | None => Some v end
  end.
End S.
