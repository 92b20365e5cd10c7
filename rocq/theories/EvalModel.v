(** Model of evaluation: how values travel from leaves through operation nodes
    (app/tenncor/src/graph/connector/iconnector.ipp with its graph_manager,
    app/tenncor/src/graph/connector/immutable/base_immutable.ipp update,
    immutable.ipp constructor and forward_pass, leaf/ileaf.ipp eval and get_eval).

    Simplifications. A value is of an abstract type [V]; the shape function and the transfer
    function of an operation are one function [f] from the values of its arguments to a value, or
    nothing when the shape function throws (ElemModel.v models these in detail); [compat]
    is the test of the new shape against the shape of the old value. The priority queues and
    update maps of all graph managers are kept in one list each; the queue of manager [m] is the part
    of it whose nodes have manager [m], so that merging two managers is relabelling. Not
    modelled: destruction of nodes, generators, shape dependencies, mutables, the jacobian
    bookkeeping of the constructor. *)
From Verif Require Import Common.

Section Eval.
Context {V : Type} (compat : V -> V -> bool).

(** a leaf, or an operation: dependencies_, function, depth_ *)
Inductive enode := NLeaf | NOp (args : list nat) (f : list V -> option V) (depth : nat).

Record estate := mkE {
  nodes : list enode;
  vals : list (option V);      (* data_: None for nullptr, or a leaf not initialised *)
  mgr : list nat;              (* g_man_ of an operation *)
  frozen : list nat;           (* managers with freeze_ set *)
  queue : list nat;            (* updates_ *)
  qmap : list nat;             (* keys of update_map_ *)
  elog : list nat              (* forward passes started, in order; observation only *)
}.

(** result of a call: normal, exception, or undefined behaviour; the state remains after an
    exception *)
Inductive out (A : Type) := Done (s : estate) (a : A) | Exc (s : estate) | Bad.
Arguments Done {A}. Arguments Exc {A}. Arguments Bad {A}.

Definition obind {A B} (x : out A) (k : estate -> A -> out B) : out B :=
  match x with Done s a => k s a | Exc s => Exc s | Bad => Bad end.

(** ileaf.ipp:57 and iconnector.ipp:100-103 get_depth *)
Definition depth_of (ns : list enode) (v : nat) : nat :=
  match nth_error ns v with Some (NOp _ _ d) => d | _ => 0 end.
Definition args_of (ns : list enode) (v : nat) : list nat :=
  match nth_error ns v with Some (NOp a _ _) => a | _ => [] end.
(** the keys of audience_: the nodes depending on [v] *)
Definition audience (ns : list enode) (v : nat) : list nat :=
  filter (fun c => existsb (Nat.eqb v) (args_of ns c)) (seq 0 (length ns)).

(** the order in which an unordered_map lists audience_, and which of the queued nodes of
    smallest depth a priority_queue has on top *)
Context (ord : list enode -> nat -> list nat) (top : list enode -> list nat -> option nat).

Definition val (s : estate) (v : nat) : option V :=
  match nth_error (vals s) v with Some (Some x) => Some x | _ => None end.
Definition man (s : estate) (v : nat) : nat := nth v (mgr s) 0.
Definition is_frozen (s : estate) (v : nat) : bool := existsb (Nat.eqb (man s v)) (frozen s).
Definition mem (v : nat) (l : list nat) : bool := existsb (Nat.eqb v) l.

Fixpoint all_some {A} (l : list (option A)) : option (list A) :=
  match l with
  | [] => Some []
  | Some x :: l => match all_some l with Some r => Some (x :: r) | None => None end
  | None :: _ => None
  end.

Definition set_val (s : estate) (v : nat) (x : V) : estate :=
  mkE (nodes s) (set_nth v (Some x) (vals s)) (mgr s) (frozen s) (queue s) (qmap s) (elog s).
Definition set_log (s : estate) (v : nat) : estate :=
  mkE (nodes s) (vals s) (mgr s) (frozen s) (queue s) (qmap s) (elog s ++ [v]).
Definition set_queue (s : estate) (q m : list nat) : estate :=
  mkE (nodes s) (vals s) (mgr s) (frozen s) q m (elog s).

(** immutable.ipp:125-172 forward_pass *)
Definition forward_pass (s : estate) (v : nat) : out unit :=
  match nth_error (nodes s) v with
  | Some (NOp args f _) =>
    let s := set_log s v in
    match all_some (map (val s) args) with
    | None => Exc s
    | Some vs =>
      match f vs with
      | None => Exc s
      | Some x =>
        match val s v with
        | None => Done (set_val s v x) tt
        | Some o => if compat x o then Done (set_val s v x) tt else Exc s
        end
      end
    end
  | _ => Bad
  end.

(** iconnector.ipp:404-412 add_update *)
Definition add_update (s : estate) (v : nat) : estate :=
  if mem v (qmap s) then s else set_queue s (v :: queue s) (v :: qmap s).

(** subject.cpp:63-92 notify(UPDATE), iobserver.cpp update(indices, UPDATE) *)
Fixpoint notify_list (up : estate -> nat -> out unit) (l : list nat) (s : estate) : out unit :=
  match l with
  | [] => Done s tt
  | c :: l => obind (up s c) (fun s _ => notify_list up l s)
  end.

(** base_immutable.ipp:133-175 update *)
Fixpoint upd (fuel : nat) (s : estate) (v : nat) : out unit :=
  match fuel with
  | 0 => Bad
  | S k =>
    match nth_error (nodes s) v with
    | Some (NOp args f _) =>
      match all_some (map (val s) args) with
      | None => Done s tt
      | Some _ =>
        if is_frozen s v || (1 <? length args) then Done (add_update s v) tt
        else obind (forward_pass s v) (fun s _ => notify_list (upd k) (ord (nodes s) v) s)
      end
    | _ => Bad
    end
  end.
Definition notify (s : estate) (v : nat) : out unit := notify_list (upd (length (nodes s))) (ord (nodes s) v) s.

(** iconnector.ipp:414-426 graph_manager::update *)
Fixpoint flush (fuel : nat) (s : estate) (m : nat) : out unit :=
  match fuel with
  | 0 => Bad
  | S k =>
    match top (nodes s) (filter (fun v => man s v =? m) (queue s)) with
    | None => Done (set_queue s (queue s) (filter (fun v => negb (man s v =? m)) (qmap s))) tt
    | Some v =>
      obind (forward_pass (set_queue s (filter (fun x => negb (x =? v)) (queue s)) (qmap s)) v)
        (fun s _ => obind (notify s v) (fun s _ => flush k s m))
    end
  end.
Definition flush_all (s : estate) (v : nat) : out unit := flush (S (length (nodes s))) s (man s v).

(** iconnector.ipp:183-199 depth of a new connector *)
Definition new_depth (ns : list enode) (args : list nat) : nat := S (list_max (map (depth_of ns) args)).

Definition is_op (ns : list enode) (v : nat) : bool := match nth_error ns v with Some (NOp _ _ _) => true | _ => false end.

(** iconnector.ipp:253-268 update_graph and 386-402 consume, 366-374 get: the manager of
    the first argument that is a connector takes over those of the others; a new one if there is none.
    Manager ids: that of the connector it was created for *)
Definition join (s : estate) (args : list nat) : list nat * nat :=
  match filter (is_op (nodes s)) args with
  | [] => (mgr s, length (nodes s))
  | a :: rest =>
    (map (fun m => if mem m (map (man s) rest) then man s a else m) (mgr s), man s a)
  end.

Inductive eop :=
| ELeaf (x : option V)                              (* a new leaf *)
| EOp (args : list nat) (f : list V -> option V)    (* immutable::get(args, ...) *)
| EAssign (x : nat) (v : V) (notif : bool)          (* the leaf's data becomes v; notify(UPDATE) *)
| EEval (v : nat)                                   (* eval() *)
| EShape (v : nat)                                  (* get_shape() *)
| EFreeze (v : nat) (b : bool)                      (* freeze_status(b) *)
| EClone (v : nat).                                 (* clone() of an operation *)

Definition step (s : estate) (o : eop) : out (option V) :=
  match o with
  | ELeaf x => Done (mkE (nodes s ++ [NLeaf]) (vals s ++ [x]) (mgr s ++ [length (nodes s)]) (frozen s) (queue s) (qmap s) (elog s)) None
  | EOp args f =>
    (* immutable.ipp:22-27 (assert), 85-92; an exception in the constructor undoes it *)
    if (length args =? 0) || negb (forallb (fun a => a <? length (nodes s)) args) then Bad
    else
      let n := length (nodes s) in
      let '(mg, m) := join s args in
      match upd (S n) (mkE (nodes s ++ [NOp args f (new_depth (nodes s) args)]) (vals s ++ [None]) (mg ++ [m]) (frozen s) (queue s) (qmap s) (elog s)) n with
      | Done s' _ => Done s' None
      | Exc s' => Exc (mkE (nodes s) (vals s) mg (frozen s) (queue s) (qmap s) (elog s'))
      | Bad => Bad
      end
  | EAssign x v notif =>
    match nth_error (nodes s) x with
    | Some NLeaf =>
      if notif then obind (notify (set_val s x v) x) (fun s _ => Done s None)
      else Done (set_val s x v) None
    | _ => Bad
    end
  | EEval v =>
    match nth_error (nodes s) v with
    | None => Bad
    | Some NLeaf => Done s (val s v)
    | Some (NOp _ _ _) => (* iconnector.ipp:119-127 *)
      if is_frozen s v then Done s (val s v)
      else obind (flush_all s v) (fun s _ => Done s (val s v))
    end
  | EShape v =>
    match nth_error (nodes s) v with
    | None => Bad
    | Some NLeaf => Done s None
    | Some (NOp _ _ _) => (* base_immutable.ipp:98-106 *)
      obind (flush_all s v) (fun s _ => Done s None)
    end
  | EFreeze v b =>
    match nth_error (nodes s) v with
    | Some (NOp _ _ _) => (* iconnector.ipp:172-180 *)
      obind (if b then flush_all s v else Done s tt) (fun s _ =>
        Done (mkE (nodes s) (vals s) (mgr s) (if b then man s v :: frozen s else filter (fun m => negb (m =? man s v)) (frozen s))
                (queue s) (qmap s) (elog s)) None)
    | _ => Bad
    end
  | EClone v =>
    match nth_error (nodes s) v with
    | Some (NOp args f _) => (* iconnector.ipp:236-242, 298-305: depth_ keeps its initial 0; base_immutable.ipp:237-249 copies data_; no update *)
      Done (mkE (nodes s ++ [NOp args f 0]) (vals s ++ [val s v]) (mgr s ++ [man s v]) (frozen s) (queue s) (qmap s) (elog s)) None
    | _ => Bad
    end
  end.

Fixpoint run (s : estate) (ops : list eop) : out unit :=
  match ops with
  | [] => Done s tt
  | o :: ops => obind (step s o) (fun s _ => run s ops)
  end.

(** a program that goes on after exceptions *)
Fixpoint run_on (s : estate) (ops : list eop) : option estate :=
  match ops with
  | [] => Some s
  | o :: ops => match step s o with Done s _ | Exc s => run_on s ops | Bad => None end
  end.

Definition einit : estate := mkE [] [] [] [] [] [] [].
End Eval.
Arguments enode : clear implicits. Arguments estate : clear implicits. Arguments out : clear implicits. Arguments eop : clear implicits.
Arguments Done {V A}. Arguments Exc {V A}. Arguments Bad {V A}.
Arguments NLeaf {V}. Arguments NOp {V}. Arguments mkE {V}.
