(** Model of one training call of gd_net (app/rocnnet/src/models/gd_net.cpp) with the RMSprop
    updater, on the evaluation graph of EvalModel.v.

    Simplifications. Those of EvalModel.v, UpdaterModel.v and TrainModel.v. *)
From Verif Require Import Common EvalModel UpdaterModel.

Section T.
Context {V : Type} (compat : V -> V -> bool) (ord : list (enode V) -> nat -> list nat) (top : list (enode V) -> list nat -> option nat).
Context (A : arith V).
Notation step := (step compat ord top).

(** the updaters of gd_utils.cpp:229-233 called one after the other (gd_net.cpp:83-86): pairs of
    momentum and variable *)
Fixpoint rms_calls (s : estate V) (l : list (nat * nat)) : out V unit :=
  match l with
  | [] => Done s tt
  | (n, w) :: l => obind (rms_call compat ord top A s n w true) (fun s _ => rms_calls s l)
  end.

(** gd_net.cpp:78-88 train: train_in_ and expected_out_ are leaves, error_ an operation,
    [updates] the updaters of updates_ (gd_utils.cpp:20-40, 214-234), in the order of the
    unordered_set of leaves *)
Definition net_train_rms (s : estate V) (train_in expected error : nat) (updates : list (nat * nat)) (x y : V) : out V unit :=
  obind (step s (EAssign train_in x true)) (fun s _ =>
  obind (step s (EAssign expected y true)) (fun s _ =>
  obind (step s (EFreeze error true)) (fun s _ =>
  obind (rms_calls s updates) (fun s _ =>
  obind (step s (EFreeze error false)) (fun s _ => Done s tt))))).
End T.
