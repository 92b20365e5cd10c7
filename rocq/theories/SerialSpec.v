(** Specification vocabulary for saving and loading. *)
From Coq Require Import String.
From Verif Require Import Common ShapeModel ShapeSpec TensorModel TensorSpec LeafModel LeafSpec SerialModel.

(** the scope used: the argument, or the model's own if the argument is empty *)
Definition scope_used (own given : string) : string := if String.eqb given "" then own else given.

Section S.
Context {T : Type}.
Implicit Types W : @lworld T.

(** the entry of file [f] for position [i] of the nodes saved under [label] *)
Definition entry (fs : files T) (f label : string) (i : nat) : option (proto T) :=
  match fs f with FRepo r => map_find r (node_label label i) | _ => None end.

(** the file exists but is not a repository *)
Definition corrupt (fs : files T) (f : string) : Prop := fs f = FGarbage.

(** node [i] holds data, its value is [(s, d)], and the shape it was declared with has the
    rank of [s] and admits it *)
Definition savable W (i : nat) (s : shape) (d : list T) : Prop :=
  observe W i = Ok (Some (s, d)) /\
  exists t, alive (l_w W) i t /\ length (allowed_shape t) = length s /\ is_compatible_with s (allowed_shape t) = Ok true.

(** a message a node can be loaded from: allocated and declared shape of the same rank and
    compatible, as many elements as the allocated shape has *)
Definition readable (p : proto T) : Prop :=
  length (p_alloc p) = length (p_allow p) /\ is_compatible_with (p_alloc p) (p_allow p) = Ok true /\
  length (p_data p) = n_elems (p_alloc p) /\ defined (p_alloc p).

(** variables, placeholders and constants, as opposed to results of operations *)
Definition is_leaf W (i : nat) : Prop := exists k, has_kind W i k /\ k <> KTensor.

(** the states a program can reach by operations on leaf nodes and by loading files of any
    content *)
Inductive reach (zero junk : T) add sub eqb : @lworld T -> Prop :=
| reach_start : reach zero junk add sub eqb linit
| reach_step W o W' : reach zero junk add sub eqb W -> lstep zero junk add sub eqb W o = Ok W' -> reach zero junk add sub eqb W'
| reach_load W fs nodes label f W' u b : reach zero junk add sub eqb W ->
    read_inorder zero junk W fs nodes label f = Ok (W', u, b) -> reach zero junk add sub eqb W'.
End S.
