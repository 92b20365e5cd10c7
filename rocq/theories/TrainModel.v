(** Model of one training call of gd_net (app/rocnnet/src/models/gd_net.cpp) with the vanilla
    gradient descent updater, on the evaluation graph of EvalModel.v.

    Simplifications. Those of EvalModel.v and UpdaterModel.v; the placeholders' assignment is
    that of a leaf with notification (LeafModel.v models what data it accepts). *)
From Verif Require Import Common EvalModel UpdaterModel.

Section T.
Context {V : Type} (compat : V -> V -> bool) (ord : list (enode V) -> nat -> list nat) (top : list (enode V) -> list nat -> option nat).
Context (A : arith V).
Notation step := (step compat ord top).

(** gd_net.cpp:78-88 train: train_in_ and expected_out_ are leaves, error_ an operation,
    [updates] the variables and nodes of updates_ (gd_utils.cpp:20-40, 81-86), in the order of
    the unordered_set of leaves *)
Definition net_train (s : estate V) (train_in expected error : nat) (updates : list (nat * nat)) (x y : V) : out V unit :=
  obind (step s (EAssign train_in x true)) (fun s _ =>
  obind (step s (EAssign expected y true)) (fun s _ =>
  obind (step s (EFreeze error true)) (fun s _ =>
  obind (vgb_calls compat ord top A s updates) (fun s _ =>
  obind (step s (EFreeze error false)) (fun s _ => Done s tt))))).

(** gd_net.cpp:67-71 operator (): the test placeholder is assigned, the output evaluated *)
Definition net_call (s : estate V) (test_in test_out : nat) (x : V) : out V (option V) :=
  obind (step s (EAssign test_in x true)) (fun s _ => step s (EEval test_out)).
End T.
