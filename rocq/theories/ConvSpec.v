(** Specification vocabulary for the convolution layer (C58). *)
From Coq Require Import String.
From Verif Require Import Common ShapeModel ElemModel GradModel MlpModel ConvModel.

(** address [p] holds the variable [v] *)
Definition var_at {T} (st : @cstore T) (p : nat) (v : @var T) : Prop := nth_error st p = Some (Live v).
(** address [p] holds a variable that was emptied by a move *)
Definition emptied {T} (st : @cstore T) (p : nat) : Prop := nth_error st p = Some Husk.
Definition deleted {T} (st : @cstore T) (p : nat) : Prop := nth_error st p = Some Gone.
(** the variable at [p] may be deleted: it exists *)
Definition deletable {T} (st : @cstore T) (p : nat) : Prop := (exists v, var_at st p v) \/ emptied st p.
(** nothing at the old addresses outside [ps] has changed *)
Definition untouched {T} (ps : list nat) (st st' : @cstore T) : Prop :=
  forall p, p < length st -> ~ In p ps -> nth_error st' p = nth_error st p.
(** addresses not in use before *)
Definition new_in {T} (st : @cstore T) (p : nat) : Prop := length st <= p.
(** same shape, initializer and data *)
Definition same_contents {T} (a b : @var T) : Prop := v_shape a = v_shape b /\ v_init a = v_init b /\ v_data a = v_data b.
