(** Generated by tools/genprops.py from OtherGradLaws.v: property statements only. *)
From Coq Require Import Reals Lra Lia.
From Verif Require Import Common ShapeModel ShapeSpec ShapeProofs TransformSpec TransformModel TransformProofs TransformLaws MatmulSpec MatmulModel ElemSpec ElemModel ElemProofs CseModel NumSpec RealNum ElemLaws GradModel GradSpec GradProofs GradLaws NetSpec NetProofs NetMlpProofs NetLaws GroupModel GroupProofs CoordSum ShapeGradSpec ShapeGradLaws SumGradLaws.
From Verif Require Import NodeLaws FitProofs OtherGradModel.
From Verif Require RbmTrainProofs.
Local Open Scope R_scope.
From Verif Require Import OtherGradLaws.

(** The derivative with respect to a variable that does not occur is the constant zero. *)
Theorem C69_absent :
  forall (T : Type) (N : num T) fresh use of_nat same (env : nat -> tens T) (k w : nat) (nd : onode),
    (forall a, In a (oargs N nd) -> gleaf w a = false) -> oderive N fresh use of_nat same env k w nd = Ok (const_scalar (n_zero N)).
Proof. exact C69_absent_lemma. Qed.
Print Assumptions C69_absent.

(** arg_max and cross_corr2d have no derivative: if the variable occurs in an argument, derive
    throws once the arguments' gradients are made. *)
Theorem C69_arg_max :
  forall (T : Type) (N : num T) fresh use of_nat same (env : nat -> tens T) (k w : nat) axis a g,
    gleaf w a = true -> ggrad N fresh use of_nat same env w a = Ok g ->
    oderive N fresh use of_nat same env k w (OArgMax axis a) = Throw.
Proof. exact C69_arg_max_lemma. Qed.
Print Assumptions C69_arg_max.

Theorem C69_cross_corr :
  forall (T : Type) (N : num T) fresh use of_nat same (env : nat -> tens T) (k w : nat) d1 d2 a f,
    gleaf w a = true \/ gleaf w f = true ->
    (forall x, In x [a; f] -> exists g d, ggrad N fresh use of_nat same env w x = Ok g /\ gderive N fresh use of_nat same env w x = Ok d) ->
    oderive N fresh use of_nat same env k w (OCorr d1 d2 a f) = Throw.
Proof. exact C69_cross_corr_lemma. Qed.
Print Assumptions C69_cross_corr.

(** fit: the gradient is that of its first argument. Where the variable's position p exists in
    the watched shape it is the derivative of the sum of the result's elements. Finding: where
    fit cuts the position off, that derivative is zero, and the gradient is still the
    argument's. *)
Theorem C69_fit :
  forall fresh use of_nat gsame, (forall a b : @gexpr R, gsame a b = true -> a = b) ->
  forall (s s' : shape) (env : nat -> tens R) (w k : nat) (e watch : expr) other,
    proper s env w e -> has_leaf w watch = false ->
    geval Rnum fresh use of_nat env (inj watch) = Ok (s', other) -> is_fully_defined s' = true -> length s' = length s ->
    let node := OFit (inj e) (inj watch) in
    exists t, oderive Rnum fresh use of_nat gsame env k w node = Ok t /\ fits s t /\
      forall p, in_bounds s p ->
        derivable_pt_lim (fun x => total (geval Rnum fresh use of_nat (set_elem env w (offset s p) x) (inj e))) (at_ (env w) (offset s p)) (at_ t (offset s p)) /\
        (in_bounds s' p -> derivable_pt_lim (fun x => total (ovalue Rnum fresh use of_nat (set_elem env w (offset s p) x) node)) (at_ (env w) (offset s p)) (at_ t (offset s p))) /\
        (~ in_bounds s' p -> derivable_pt_lim (fun x => total (ovalue Rnum fresh use of_nat (set_elem env w (offset s p) x) node)) (at_ (env w) (offset s p)) 0).
Proof. exact C69_fit_lemma. Qed.
Print Assumptions C69_fit.

(** clip_norm. Finding: the gradient with respect to its argument, a variable, is the cap for
    every value whose first element is not zero; for a variable of one element the result is
    constant on each side of zero, and for larger ones the derivative with respect to all but
    the first element is the cap divided by the first element's absolute value. *)
Theorem C69_clip_norm_refuted :
  forall fresh use of_nat gsame, (forall a b : @gexpr R, gsame a b = true -> a = b) ->
  forall (env : nat -> tens R) (w k n : nat) (x cap : R) (l : list R),
    k <> w -> 0 < cap -> x <> 0 -> env w = ([S n], x :: l) -> length l = n ->
    oderive Rnum fresh use of_nat gsame env k w (OClip cap (GVar w)) = Ok ([1%nat], [cap]) /\
    (n = 0%nat -> derivable_pt_lim (fun r => total (ovalue Rnum fresh use of_nat (set_elem env w 0 r) (OClip cap (GVar w)))) x 0) /\
    (forall i, (0 < i <= n)%nat ->
       derivable_pt_lim (fun r => total (ovalue Rnum fresh use of_nat (set_elem env w i r) (OClip cap (GVar w)))) (at_ (env w) i) (cap / Rabs x)).
Proof. exact C69_clip_norm_refuted_lemma. Qed.
Print Assumptions C69_clip_norm_refuted.

(** A comparison of two different variables: the gradient is 1 or 0 according to the comparison
    of the constants 1 and 0, whatever the variables hold. *)
Theorem C69_comparison :
  forall (T : Type) (N : num T) fresh use of_nat same (env : nat -> tens T) (w v k : nat) (compare : T -> T -> bool),
    v <> w -> oderive N fresh use of_nat same env k w (OCond compare (GVar w) (GVar v)) = Ok ([1%nat], [if compare (n_one N) (n_zero N) then n_one N else n_zero N]).
Proof. exact C69_comparison_lemma. Qed.
Print Assumptions C69_comparison.

(** In general the gradient of a comparison of two elementwise expressions, at least one of
    which has the variable, is at every element the comparison of the derivatives of the two
    sides there, 1 if it holds and 0 otherwise. *)
Theorem C69_comparison_elements :
  forall fresh use of_nat gsame, (forall a b : @gexpr R, gsame a b = true -> a = b) ->
  forall (s : shape) (env : nat -> tens R) (w k : nat) (e1 e2 : expr) (compare : R -> R -> bool),
    is_fully_defined s = true -> fits s (env w) -> leaves_fit s env e1 -> leaves_fit s env e2 -> (has_leaf w e1 = true \/ has_leaf w e2 = true) ->
    (forall i, (i < n_elems s)%nat -> regular i (fun v => at_ (env v) i) e1 /\ regular i (fun v => at_ (env v) i) e2) ->
    exists t, oderive Rnum fresh use of_nat gsame env k w (OCond compare (inj e1) (inj e2)) = Ok t /\ fits s t /\
      forall i, (i < n_elems s)%nat -> exists d1 d2,
        derivable_pt_lim (fun x => elem (geval Rnum fresh use of_nat (set_elem env w i x) (inj e1)) i) (at_ (env w) i) d1 /\
        derivable_pt_lim (fun x => elem (geval Rnum fresh use of_nat (set_elem env w i x) (inj e2)) i) (at_ (env w) i) d2 /\
        at_ t i = if compare d1 d2 then 1 else 0.
Proof. exact C69_comparison_elements_lemma. Qed.
Print Assumptions C69_comparison_elements.

(** Finding: so the gradients of != and of any other comparison that holds of 1 and 0 are 1,
    while the result does not change where the comparison does not: the derivative is 0. *)
Theorem C69_comparison_refuted :
  forall fresh use of_nat gsame (env : nat -> tens R) (w v k i : nat) (compare : R -> R -> bool) (s : shape) xs ys,
    v <> w -> is_fully_defined s = true -> n_elems s <> 1%nat -> env w = (s, xs) -> env v = (s, ys) -> length xs = n_elems s -> length ys = n_elems s -> (i < n_elems s)%nat ->
    (exists d, 0 < d /\ forall r, Rabs (r - nth i xs 0) < d -> compare r (nth i ys 0) = compare (nth i xs 0) (nth i ys 0)) ->
    derivable_pt_lim (fun r => total (ovalue Rnum fresh use of_nat (set_elem env w i r) (OCond compare (GVar w) (GVar v)))) (at_ (env w) i) 0 /\
    (compare 1 0 = true -> oderive Rnum fresh use of_nat gsame env k w (OCond compare (GVar w) (GVar v)) = Ok ([1%nat], [1])).
Proof. exact C69_comparison_refuted_lemma. Qed.
Print Assumptions C69_comparison_refuted.

(** sin(x) of shape [3, 2] fitted to a node of shape [2, 2] meets the hypotheses, with
    positions kept and cut off; the variable (3, -4) and the cap 2; != of (3, -4) and (5, 6) *)
Example C69_nonvacuous :
  let env := fun v : nat => match v with 0%nat => ([3; 2]%nat, [0; 1; 2; 3; 4; 5]) | 1%nat => ([2; 2]%nat, [7; 7; 7; 7]) | 2%nat => ([2%nat], [3; -4]) | _ => ([2%nat], [5; 6]) end : tens R in
  let gsame := fun _ _ : @gexpr R => false in
  (forall a b, gsame a b = true -> a = b) /\
  proper [3; 2]%nat env 0 (EUn USin (EVar 0)) /\ has_leaf 0 (@EVar R 1) = false /\ geval Rnum (fun _ => 0) false INR env (inj (EVar 1)) = Ok ([2; 2]%nat, [7; 7; 7; 7]) /\
  in_bounds [3; 2]%nat [1; 0]%nat /\ in_bounds [2; 2]%nat [1; 0]%nat /\ in_bounds [3; 2]%nat [2; 0]%nat /\ ~ in_bounds [2; 2]%nat [2; 0]%nat /\
  oderive Rnum (fun _ => 0) false INR gsame env 9 2 (OClip 2 (GVar 2)) = Ok ([1%nat], [2]) /\
  (exists d, 0 < d /\ forall r, Rabs (r - 3) < d -> negb (Reqb r 5) = negb (Reqb 3 5)) /\ negb (Reqb 1 0) = true /\
  ggrad Rnum (fun _ => 0) false INR gsame env 2 (GVar 2) = Ok (GConst ([1%nat], [1])) /\
  (fits [3; 2]%nat (env 0%nat) /\ leaves_fit [3; 2]%nat env (EUn UExp (EVar 0)) /\ forall i, regular i (fun v => at_ (env v) i) (EUn UExp (EVar 0))).
Proof. exact C69_nonvacuous_lemma. Qed.
