(** Generated by tools/genprops.py from MeanGradLaws.v: property statements only. *)
From Coq Require Import Reals Lra Lia.
From Verif Require Import Common ShapeModel ShapeSpec ShapeProofs TransformSpec TransformModel TransformProofs TransformLaws MatmulSpec MatmulModel ElemSpec ElemModel ElemProofs CseModel CseSpec NumSpec RealNum ElemLaws GradModel GradSpec GradProofs GradLaws NetSpec NetProofs NetMlpProofs NetLaws GroupModel GroupProofs GroupSubst MeanLaws RbmTrainProofs CoordSum ShapeGradSpec ShapeGradLaws.
Local Open Scope R_scope.
From Verif Require Import MeanGradLaws.

(** reduce_mean over all elements: the gradient has the layout of the variable and its elements
    are the derivatives of the mean. *)
Theorem C64_mean :
  forall fresh use gsame, (forall a b : @gexpr R, gsame a b = true -> a = b) ->
  forall (s : shape) (env : nat -> tens R) (w : nat) (e : expr),
    proper s env w e ->
    exists x g t, gmean Rnum gsame None (inj e) = Ok x /\ gderive Rnum fresh use INR gsame env w x = Ok g /\ geval Rnum fresh use INR env g = Ok t /\ fits s t /\
      forall k, (k < n_elems s)%nat ->
        derivable_pt_lim (fun r => total (geval Rnum fresh use INR (set_elem env w k r) x)) (at_ (env w) k) (at_ t k) /\
        derivable_pt_lim (fun r => total (geval Rnum fresh use INR (set_elem env w k r) (inj e))) (at_ (env w) k) (INR (n_elems s) * at_ t k).
Proof. exact C64_mean_lemma. Qed.
Print Assumptions C64_mean.

(** reduce_mean along an axis: the same for the sum of the node's elements, each the mean of
    one line of e along the axis. *)
Theorem C64_mean_axis :
  forall fresh use gsame, (forall a b : @gexpr R, gsame a b = true -> a = b) ->
  forall (s : shape) (env : nat -> tens R) (w : nat) (e : expr) (axis : nat),
    proper s env w e -> (axis < length s)%nat ->
    exists x g t, gmean Rnum gsame (Some axis) (inj e) = Ok x /\ gderive Rnum fresh use INR gsame env w x = Ok g /\ geval Rnum fresh use INR env g = Ok t /\ fits s t /\
      forall k, (k < n_elems s)%nat ->
        derivable_pt_lim (fun r => total (geval Rnum fresh use INR (set_elem env w k r) x)) (at_ (env w) k) (at_ t k) /\
        derivable_pt_lim (fun r => total (geval Rnum fresh use INR (set_elem env w k r) (inj e))) (at_ (env w) k) (INR (nth axis s 0%nat) * at_ t k).
Proof. exact C64_mean_axis_lemma. Qed.
Print Assumptions C64_mean_axis.
