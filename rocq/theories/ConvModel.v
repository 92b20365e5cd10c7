(** Model of conv_layer (app/rocnnet) and conv2d (app/tenncor). *)
From Coq Require Import String NArith.
From Verif Require Import Common ShapeModel TransformModel ElemModel GradModel MlpModel.
Local Open Scope string_scope.
Local Open Scope list_scope.

Section Conv.
Context {T : Type} (N : num T) (of_nat : nat -> T) (fresh : nat -> T).

(** ---- variables in memory ---- *)
(** a variable object at an address: alive, emptied by a move (variable.ipp:200-204,
    ileaf.ipp:160-169, ivariable.ipp:114-123: tensor and initializer taken) or deleted *)
Inductive slot := Live (v : @var T) | Husk | Gone.
Definition cstore := list slot.
Definition calloc (s : slot) (st : cstore) : nat * cstore := (length st, st ++ [s]).

(** variable::clone (variable.ipp:31-34, ileaf.ipp:143-157, ivariable.ipp:97-112) followed by
    set_label: the clone of an emptied variable is empty (what its label is does not matter) *)
Definition cclone (label : string) (p : nat) (st : cstore) : res (nat * cstore) :=
  match nth_error st p with
  | Some (Live v) => Ok (calloc (Live (relabel label v)) st)
  | Some Husk => Ok (calloc Husk st)
  | _ => UB
  end.
(** delete: an emptied variable can be deleted *)
Definition cdelete (p : nat) (st : cstore) : res cstore :=
  match nth_error st p with
  | Some (Live _) | Some Husk => Ok (set_nth p Gone st)
  | _ => UB
  end.
(** variable::move (variable.ipp:37-41, 200-204): a new object takes everything *)
Definition cmove (p : nat) (st : cstore) : res (nat * cstore) :=
  match nth_error st p with
  | Some (Live v) => Ok (calloc (Live v) (set_nth p Husk st))
  | Some Husk => Ok (calloc Husk st)
  | _ => UB
  end.

(** ---- conv_layer ---- *)
Record conv_layer := mkConv { cv_scope : string; cv_w : nat; cv_b : nat }.

(** conv_layer.cpp:16-26 *)
Definition conv_new (fh fw in_ncol out_ncol : nat) (scope : string) (st : cstore) : conv_layer * cstore :=
  let lim := n_sqrt N (of_nat (fh * fw * in_ncol)) in
  let '(w, st) := calloc (Live (mkVar (scope ++ "_weight") [fh; fw; in_ncol; out_ncol]
                    (IUniform (n_div N (n_neg N (n_one N)) lim) (n_div N (n_one N) lim)) None)) st in
  let '(b, st) := calloc (Live (mkVar (scope ++ "_bias") [out_ncol] (IConst (n_zero N)) None)) st in
  (mkConv scope w b, st).

(** conv_layer.cpp:69-75 *)
Definition conv_variables (l : conv_layer) : list nat := [cv_w l; cv_b l].

(** conv_layer.cpp:99-105 copy_helper, for an object whose scope_ is [scope] *)
Definition conv_copy (scope : string) (other : conv_layer) (st : cstore) : res (conv_layer * cstore) :=
  r <- cclone (scope ++ "_weight") (cv_w other) st ;; let '(w, st) := r in
  r <- cclone (scope ++ "_bias") (cv_b other) st ;; let '(b, st) := r in
  Ok (mkConv scope w b, st).
(** conv_layer.cpp:33-36, 77-81, 89-92; ilayer.cpp:48-58 *)
Definition conv_clone (l : conv_layer) (scope : string) (st : cstore) : res (conv_layer * cstore) :=
  conv_copy (copied_scope (cv_scope l) scope) l st.

(** conv_layer.cpp:28-31, 113-117 *)
Definition conv_delete (l : conv_layer) (st : cstore) : res cstore :=
  st <- cdelete (cv_w l) st ;; cdelete (cv_b l) st.

(** conv_layer.cpp:107-111 move_helper: the other object keeps its (emptied) variables *)
Definition conv_take (scope : string) (other : conv_layer) (st : cstore) : res (conv_layer * cstore) :=
  r <- cmove (cv_w other) st ;; let '(w, st) := r in
  r <- cmove (cv_b other) st ;; let '(b, st) := r in
  Ok (mkConv scope w b, st).
(** conv_layer.cpp:38-41, 83-87, 94-97; ilayer.cpp:60-61: the new object, the old one (its
    scope moved from) and the memory *)
Definition conv_move (l : conv_layer) (st : cstore) : res (conv_layer * conv_layer * cstore) :=
  r <- conv_take (cv_scope l) l st ;; let '(l', st) := r in
  Ok (l', mkConv "" (cv_w l) (cv_b l), st).

(** conv_layer.cpp:43-51; [self]: both are the same object. The scope is not assigned. *)
Definition conv_assign (self : bool) (this other : conv_layer) (st : cstore) : res (conv_layer * cstore) :=
  if self then Ok (this, st)
  else st <- conv_delete this st ;; conv_copy (cv_scope this) other st.
(** conv_layer.cpp:53-61 *)
Definition conv_move_assign (self : bool) (this other : conv_layer) (st : cstore) : res (conv_layer * cstore) :=
  if self then Ok (this, st)
  else st <- conv_delete this st ;; conv_take (cv_scope this) other st.

(** ---- values ---- *)
(** transform.ipp:518-525 as a shaper on dimensions of any size (they are size_t) *)
Definition corr_shaper (d1 d2 : nat) (shapes : list shape) : res shape :=
  img <- rd shapes 0 ;; filt <- rd shapes 1 ;;
  o <- cross_corr_shape d1 d2 (map N.of_nat img) (map N.of_nat filt) ;;
  Ok (map N.to_nat o).
(** transform.ipp:526-551 *)
Definition corr_forward (d1 d2 : nat) : @forward T := fun outs ins srcs dest =>
  i <- rd ins 0 ;; a <- rd srcs 0 ;; b <- rd srcs 1 ;;
  cross_corr_fwd (n_zero N) (n_add N) (n_mul N) d1 d2 outs i a b dest.
(** transform.ipp:561-566 conv2d: value of the node for the values of its arguments *)
Definition conv2d_value (d1 d2 : nat) (a filter : tens T) : res (tens T) :=
  f <- forward_pass fresh (shaper1 (fun s => Ok (flip_shape s))) (forward1 (flip_fwd [d1; d2])) [filter] None ;;
  forward_pass fresh (corr_shaper d1 d2) (corr_forward d1 d2) [a; f] None.
(** conv_layer.cpp:63-67 with the default dims {0, 1} (operations.hpp:275): value of the
    returned node for the values of input, weight and bias *)
Definition conv_value (input weight bias : tens T) : res (tens T) :=
  m <- conv2d_value 0 1 input weight ;;
  forward_pass fresh (binary_axial_shape 1 false) (binary_axial (n_add N) 1 false) [m; bias] None.
End Conv.
