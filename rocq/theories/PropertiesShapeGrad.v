(** Generated by tools/genprops.py from ShapeGradLaws.v: property statements only. *)
From Coq Require Import Reals Lra Lia.
From Verif Require Import Common ShapeModel ShapeSpec ShapeProofs TransformSpec TransformModel TransformProofs TransformLaws MatmulSpec MatmulModel ElemSpec ElemModel ElemProofs CseModel NumSpec RealNum ElemLaws GradModel GradSpec GradProofs GradLaws NetSpec NetProofs NetMlpProofs NetLaws GroupModel GroupProofs CoordSum ShapeGradSpec.
Local Open Scope R_scope.
From Verif Require Import ShapeGradLaws.

(** extend: the gradient built for extend(e, index, multiplier) has the layout of the variable;
    multiplied by the multiplier its elements are the derivatives of the sum of the node's
    elements. Without the factor they are the derivatives of the sum of e's elements (for a
    multiplier other than 0, which gives the constant 0): extending does not count. *)
Theorem C64_extend :
  forall fresh use of_nat gsame, (forall a b : @gexpr R, gsame a b = true -> a = b) ->
  forall (s : shape) (env : nat -> tens R) (w : nat) (e : expr) (index m : nat),
    proper s env w e -> (index < length s)%nat ->
    let x := gext Rnum index m (inj e) in
    exists g t, gderive Rnum fresh use of_nat gsame env w x = Ok g /\ geval Rnum fresh use of_nat env g = Ok t /\ fits s t /\
      forall k, (k < n_elems s)%nat ->
        derivable_pt_lim (fun r => total (geval Rnum fresh use of_nat (set_elem env w k r) x)) (at_ (env w) k) (INR m * at_ t k) /\
        (m <> 0%nat -> derivable_pt_lim (fun r => total (geval Rnum fresh use of_nat (set_elem env w k r) (inj e))) (at_ (env w) k) (at_ t k)).
Proof. exact C64_extend_lemma. Qed.
Print Assumptions C64_extend.

(** flip: if the gradient of e has the full shape, then so has the gradient of flip(e, dims), and
    its elements are the derivatives of the sum of the node's elements, but in mirrored
    positions: those of the node, not those of the variable. *)
Theorem C64_flip :
  forall fresh use of_nat gsame, (forall a b : @gexpr R, gsame a b = true -> a = b) ->
  forall (s : shape) (env : nat -> tens R) (w : nat) (e : expr) (dims : list nat),
    proper s env w e -> Forall (fun d => (d < length s)%nat) dims ->
    exists g t, gderive Rnum fresh use of_nat gsame env w (inj e) = Ok g /\ geval Rnum fresh use of_nat env g = Ok t /\
      (fst t = s ->
       exists g' t', gderive Rnum fresh use of_nat gsame env w (GFlip dims (inj e)) = Ok g' /\ geval Rnum fresh use of_nat env g' = Ok t' /\ fst t' = s /\
        forall c, in_bounds s c ->
          derivable_pt_lim (fun r => total (geval Rnum fresh use of_nat (set_elem env w (offset s c) r) (GFlip dims (inj e)))) (at_ (env w) (offset s c)) (at_ t' (offset s (mirror s dims c)))).
Proof. exact C64_flip_lemma. Qed.
Print Assumptions C64_flip.

(** Finding: the gradient of flip(x, dims) by the variable x itself is a flip of a single element,
    for which every axis but the first is out of range. *)
Theorem C64_flip_variable_refuted :
  forall fresh use of_nat gsame (env : nat -> tens R) w dims, Exists (fun d => (0 < d)%nat) dims ->
    exists g, gderive Rnum fresh use of_nat gsame env w (GFlip dims (GVar w)) = Ok g /\ geval Rnum fresh use of_nat env g = UB.
Proof. exact C64_flip_variable_refuted_lemma. Qed.
Print Assumptions C64_flip_variable_refuted.

(** reduce_sum along any axis (also one that does not exist): the gradient's elements are the
    derivatives of the sum of the node's elements. *)
Theorem C64_sum_axis :
  forall fresh use of_nat gsame, (forall a b : @gexpr R, gsame a b = true -> a = b) ->
  forall (s : shape) (env : nat -> tens R) (w : nat) (e : expr) (axis : nat),
    proper s env w e ->
    exists g t, gderive Rnum fresh use of_nat gsame env w (GSum (Some axis) (inj e)) = Ok g /\ geval Rnum fresh use of_nat env g = Ok t /\ fits s t /\
      forall k, (k < n_elems s)%nat ->
        derivable_pt_lim (fun r => total (geval Rnum fresh use of_nat (set_elem env w k r) (GSum (Some axis) (inj e)))) (at_ (env w) k) (at_ t k).
Proof. exact C64_sum_axis_lemma. Qed.
Print Assumptions C64_sum_axis.

(** Finding: the gradient of l2norm(x) is the constant 1 for every variable x; the node's value is
    the size of the first element, whose derivative is -1 for a negative one, and 0 by the
    others. *)
Theorem C64_l2norm_refuted :
  forall fresh use of_nat gsame (env : nat -> tens R) a b, env 0%nat = ([2%nat], [a; b]) -> a < 0 ->
    (exists g, gderive Rnum fresh use of_nat gsame env 0 (GNorm (GVar 0)) = Ok g /\ geval Rnum fresh use of_nat env g = Ok ([1%nat], [1])) /\
    derivable_pt_lim (fun r => total (geval Rnum fresh use of_nat (set_elem env 0 0 r) (GNorm (GVar 0)))) a (-1) /\
    derivable_pt_lim (fun r => total (geval Rnum fresh use of_nat (set_elem env 0 1 r) (GNorm (GVar 0)))) b 0.
Proof. exact C64_l2norm_refuted_lemma. Qed.
Print Assumptions C64_l2norm_refuted.

(** sin(x) for a variable of shape [2, 3] meets the hypotheses; its gradient has the full shape *)
Example C64_nonvacuous :
  forall fresh use of_nat,
  let gsame := fun _ _ : @gexpr R => false in
  let env := fun _ : nat => ([2; 3]%nat, [0; 1; 2; 3; 4; 5]) in
  let e := EUn USin (EVar 0) in
  (forall a b, gsame a b = true -> a = b) /\
  proper [2; 3]%nat env 0 e /\ (1 < length [2; 3]%nat)%nat /\ Forall (fun d => (d < length [2; 3]%nat)%nat) [0; 1]%nat /\
  exists g t, gderive Rnum fresh use of_nat gsame env 0 (inj e) = Ok g /\ geval Rnum fresh use of_nat env g = Ok t /\ fst t = [2; 3]%nat.
Proof. exact C64_nonvacuous_lemma. Qed.
