(** Model of calling the training functions of restricted Boltzmann machines and deep belief
    networks, on the evaluation graph of EvalModel.v.

    Simplifications. Those of EvalModel.v; the values that a variable takes are computed by
    the value-level models of assign_func (DqnModel.assign_sub; LeafModel.v has the tensors). *)
From Coq Require Import Reals.
From Verif Require Import Common ShapeModel ElemModel RealNum GroupModel EvalModel.
From Verif Require DqnModel.

Section C.
Context {V : Type} (compat : V -> V -> bool) (ord : list (enode V) -> nat -> list nat) (top : list (enode V) -> list nat -> option nat).
Notation step := (step compat ord top).

(** the functions that variable.ipp:88-118 assign and 157-195 assign_sub return: nothing for a
    constant 0, otherwise the data of a constant or the node to evaluate at each call *)
Inductive closure := KNone | KData (w : nat) (f : V -> res V) | KNode (w n : nat) (f : V -> V -> res V).

(** assigner_ on the variable's data, then notify(UPDATE) *)
Definition put (s : estate V) (w : nat) (r : res V) : out V unit :=
  match r with
  | Ok z => obind (step s (EAssign w z true)) (fun s _ => Done s tt)
  | Throw => Exc s
  | Abort | UB => Bad
  end.
(** calling one with notify = true *)
Definition run_closure (s : estate V) (c : closure) : out V unit :=
  match c with
  | KNone => Done s tt
  | KData w f => match val s w with Some y => put s w (f y) | None => Bad end
  | KNode w n f =>
    obind (step s (EEval n)) (fun s r =>
      match r, val s w with Some x, Some y => put s w (f y x) | _, _ => Bad end)
  end.
Fixpoint run_closures (s : estate V) (l : list closure) : out V unit :=
  match l with [] => Done s tt | c :: l => obind (run_closure s c) (fun s _ => run_closures s l) end.

(** rbm.cpp:167-175 and db_net.cpp:118-126: freeze the cost, call all, unfreeze *)
Definition frozen_call (s : estate V) (cost : nat) (l : list closure) : out V unit :=
  obind (step s (EFreeze cost true)) (fun s _ =>
  obind (run_closures s l) (fun s _ =>
  obind (step s (EFreeze cost false)) (fun s _ => Done s tt))).
End C.
Arguments KNone {V}. Arguments KData {V}. Arguments KNode {V}. Arguments closure : clear implicits.

(** variable.ipp:157-195 assign_sub(u) of the variable at leaf [w], the node of [u] being [n] *)
Definition sub_closure (w n : nat) (u : @gexpr R) : closure (tens R) :=
  match u with
  | GConst t => if const_is Rnum t 0%R then KNone else KData w (fun y => DqnModel.assign_sub y (t, true))
  | _ => KNode w n (fun y x => DqnModel.assign_sub y (x, false))
  end.
(** variable.ipp:88-118 assign(node n) of the variable at leaf [w], with
    tensor_handler.ipp:102-115 (the sizes must agree, the variable keeps its shape) *)
Definition set_closure (w n : nat) : closure (tens R) :=
  KNode w n (fun y x =>
    _ <- assert_ (n_elems (fst x) =? n_elems (fst y)) ;;
    d <- for_ (n_elems (fst x)) (fun i d => z <- rd (snd x) i ;; wr d i z) (snd y) ;;
    Ok (fst y, d)).
