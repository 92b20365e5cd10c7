(** Specification vocabulary for training with RMSprop. *)
From Coq Require Import Reals.
From Verif Require Import Common EvalModel EvalSpec UpdaterModel UpdaterSpec TrainSpec ElemModel.
From Verif Require GradSpec.

(** the updater of one variable: its momentum variable and that one's initial value, the
    variable, and the gradient node *)
Record rms_up (V : Type) := mkRms { rm_mom : nat; rm_var : nat; rm_grad : nat; rm_one : V }.
Arguments mkRms {V}. Arguments rm_mom {V}. Arguments rm_var {V}. Arguments rm_grad {V}. Arguments rm_one {V}.

(** States with the updaters [L]: first anything that can happen without updaters, then in any
    order building further updaters, any building, assigning with notification, evaluating,
    freezing and unfreezing that leaves the momenta alone, and assignments to momenta without
    notification, as the updaters make them. *)
Inductive rms_history {V} compat ord top (A : arith V) : list (rms_up V) -> estate V -> Prop :=
| rh_start s : history compat ord top s -> rms_history compat ord top A [] s
| rh_build L s w g one s' :
    rms_history compat ord top A L s -> leaf s w -> ~ In w (map rm_mom L) -> g < length (nodes s) -> ~ In g (map rm_mom L) ->
    run compat ord top s (rms_ops A (length (nodes s)) g one) = Done s' tt ->
    rms_history compat ord top A (mkRms (length (nodes s)) w g one :: L) s'
| rh_step L s o s' r :
    rms_history compat ord top A L s -> plain o -> (forall u, In u L -> avoids (rm_mom u) o) ->
    step compat ord top s o = Done s' r -> rms_history compat ord top A L s'
| rh_momentum L s u z s' r :
    rms_history compat ord top A L s -> In u L -> step compat ord top s (EAssign (rm_mom u) z false) = Done s' r ->
    rms_history compat ord top A L s'.

(** Tensors of real numbers: elementwise maps in storage order. *)
Definition tmap (f : R -> R) (t : tens R) : tens R := (fst t, map f (snd t)).
Definition tmap2 (f : R -> R -> R) (a b : tens R) : option (tens R) :=
  if (length (snd b) =? length (snd a))%nat then Some (fst a, map (fun p => f (fst p) (snd p)) (combine (snd a) (snd b))) else None.
(** the operators applied by the RMSprop updater (gd_utils.cpp:225-226) on tensors *)
Definition real_tensors (lr d eps : R) : arith (tens R) :=
  mkArith (tens R) (tmap (fun x => x * lr)%R) (tmap (fun x => d * x)%R) (tmap (fun x => (1 - d) * x)%R) (tmap (fun x => x ^ 2)%R)
    (tmap sqrt) (tmap (fun x => x + eps)%R) (tmap2 Rplus) (tmap2 Rdiv) tensor_sub.
(** the initial value of a momentum: ones of the variable's shape (gd_utils.cpp:217-218) *)
Definition ones_like (t : tens R) : tens R := tmap (fun _ => 1%R) t.
(** two tensors with the same elements in storage order *)
Definition same_elements (a b : tens R) : Prop := length (snd a) = length (snd b) /\ forall k, k < length (snd b) -> GradSpec.at_ a k = GradSpec.at_ b k.
