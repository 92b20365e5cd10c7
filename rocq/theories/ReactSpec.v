(** What the observer graph looks like from outside: who depends on whom, who is notified by
    whom, and who dies with whom. *)
From Verif Require Import Common ReactModel.

(** the i-th dependency of observer o is subject s *)
Definition dep (h : heap) (o i s : nat) : Prop := nth_error (odeps (get h o)) i = Some (Some s).
(** subject s notifies observer o under index i *)
Definition link (h : heap) (s o i : nat) : Prop := In (o, i) (oaud (get h s)).

(** the two sides mirror each other *)
Definition mirrored (h : heap) : Prop := forall o i s, dep h o i s <-> link h s o i.

(** nothing refers to a destroyed object *)
Definition no_dangling (h : heap) : Prop :=
  (forall o i s, dep h o i s -> ophase (get h s) <> Gone) /\
  (forall s o i, link h s o i -> ophase (get h o) <> Gone).

(** classes that destroy themselves when nobody observes them *)
Definition selfdel (k : kind) : Prop := k = KConst false \/ k = KGen.
(** classes that destroy themselves when a dependency goes away *)
Definition fragile (k : kind) : Prop := k = KConn \/ k = KGen.

(** what dies when the objects in R die: they themselves; whatever computes from something
    dying; and whatever destroys itself for lack of observers when all of its observers die *)
Inductive dead (h : heap) (R : nat -> Prop) : nat -> Prop :=
| dead_root x : R x -> dead h R x
| dead_up o i s : fragile (okind (get h o)) -> dep h o i s -> dead h R s -> dead h R o
| dead_down c o i : selfdel (okind (get h c)) -> ophase (get h c) = Live -> link h c o i ->
    (forall o' i', link h c o' i' -> dead h R o') -> dead h R c.

(** ---- histories ---- *)
Definition alive (h : heap) (x : nat) : Prop := ophase (get h x) = Live.
Definition node (h : heap) (x : nat) : Prop := alive h x /\ has_sub (okind (get h x)) = true.
Definition pointer (h : heap) (x : nat) : Prop := alive h x /\ okind (get h x) = KVar.
Definition connector (h : heap) (x : nat) : Prop := alive h x /\ okind (get h x) = KConn.

(** what a program may do with objects that exist: leaves take no arguments, a pointer at most
    one; assignment copies between two pointers or two connectors; moving empties a variable
    or a connector; anything alive may be destroyed *)
Definition legal (h : heap) (c : op) : Prop :=
  match c with
  | ONew k deps => (forall s, In s deps -> node h s) /\ (has_obs k = false -> deps = []) /\ (k = KVar -> length deps <= 1)
  | OAssign v s => pointer h v /\ (forall x, s = Some x -> node h x)
  | OClear v => pointer h v /\ odeps (get h v) <> []
  | OCopy o x => (pointer h o /\ pointer h x) \/ (connector h o /\ connector h x)
  | OMove o x => connector h o /\ connector h x
  | OMoveNew x => alive h x /\ (okind (get h x) = KLeaf \/ okind (get h x) = KConn)
  | ODelete x => alive h x
  end.

(** the heaps a program can reach; [ord] is how the library's hash tables happen to iterate *)
Inductive reach (ord : list nat -> list nat) : heap -> Prop :=
| reach_empty : reach ord []
| reach_step h c h' : reach ord h -> legal h c -> step ord h c = Ok h' -> reach ord h'.
