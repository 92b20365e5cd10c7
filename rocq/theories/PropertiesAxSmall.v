(** Generated by tools/genprops.py from AxSmallLaws.v: property statements only. *)
From Coq Require Import Reals Lra Lia.
From Verif Require Import Common ShapeModel ShapeSpec ShapeProofs TransformSpec TransformModel TransformProofs TransformLaws MatmulSpec MatmulModel ElemSpec ElemModel ElemProofs CseModel NumSpec RealNum ElemLaws GradModel GradSpec GradProofs GradLaws NetSpec NetProofs NetMlpProofs NetLaws GroupModel GroupProofs CoordSum ShapeGradSpec ShapeGradLaws SumGradLaws AxGradLaws.
Local Open Scope R_scope.
From Verif Require RbmTrainProofs.
From Verif Require ShapeLaws.
From Verif Require Import AxSmallLaws.

(** The small argument, an expression of elementwise operations, is spread along axis i of the
    large one, which does not depend on the variable. The gradient of the product with respect
    to a variable in the small argument is right, whichever argument is the small one: the
    products summed along the axis. *)
Theorem C68_product :
  forall fresh use gsame, (forall a b : @gexpr R, gsame a b = true -> a = b) ->
  forall (lft : bool) (i : nat) (s : shape) (env : nat -> tens R) (w : nat) (e c : expr) (lc : list R) (ge : gexpr) (te : tens R),
    spreadable i s -> proper (axis_removed i s) env w e -> has_leaf w c = false -> (forall t, c <> EConst t) ->
    geval Rnum fresh use INR env (inj c) = Ok (s, lc) -> length lc = n_elems s ->
    gderive Rnum fresh use INR gsame env w (inj e) = Ok ge -> geval Rnum fresh use INR env ge = Ok te -> spread_grad (axis_removed i s) ge te ->
    exists x g, gaxial Rnum gsame BMul lft i (if lft then inj e else inj c) (if lft then inj c else inj e) = Ok x /\
      gderive Rnum fresh use INR gsame env w x = Ok g /\ right fresh use (axis_removed i s) env w x (geval Rnum fresh use INR env g).
Proof. exact C68_product_lemma. Qed.
Print Assumptions C68_product.

(** Likewise the small tensor divided by the large one, if that is nonzero everywhere. *)
Theorem C68_quotient :
  forall fresh use gsame, (forall a b : @gexpr R, gsame a b = true -> a = b) ->
  forall (i : nat) (s : shape) (env : nat -> tens R) (w : nat) (e c : expr) (lc : list R) (ge : gexpr) (te : tens R),
    spreadable i s -> proper (axis_removed i s) env w e -> has_leaf w c = false -> (forall t, c <> EConst t) ->
    geval Rnum fresh use INR env (inj c) = Ok (s, lc) -> length lc = n_elems s -> (forall j, (j < n_elems s)%nat -> nth j lc 0 <> 0) ->
    gderive Rnum fresh use INR gsame env w (inj e) = Ok ge -> geval Rnum fresh use INR env ge = Ok te -> spread_grad (axis_removed i s) ge te ->
    exists x g, gaxial Rnum gsame BDiv true i (inj e) (inj c) = Ok x /\
      gderive Rnum fresh use INR gsame env w x = Ok g /\ right fresh use (axis_removed i s) env w x (geval Rnum fresh use INR env g).
Proof. exact C68_quotient_lemma. Qed.
Print Assumptions C68_quotient.

(** Finding: for sums and differences of the variable itself with a large tensor, derive gives
    the single number 1 (-1 for large - small): it sums the gradient before spreading it, so
    the number of copies is lost, and the result is no gradient. *)
Theorem C68_sum_refuted :
  forall fresh use gsame, (forall a b : @gexpr R, gsame a b = true -> a = b) ->
  forall (op : bop) (lft : bool) (i : nat) (s : shape) (env : nat -> tens R) (w : nat) (c : expr) (lc : list R),
    op = BAdd \/ op = BSub -> spreadable i s -> proper (axis_removed i s) env w (EVar w) -> has_leaf w c = false -> (forall t, c <> EConst t) ->
    geval Rnum fresh use INR env (inj c) = Ok (s, lc) -> length lc = n_elems s ->
    exists x g, gaxial Rnum gsame op lft i (if lft then GVar w else inj c) (if lft then inj c else GVar w) = Ok x /\
      gderive Rnum fresh use INR gsame env w x = Ok g /\
      geval Rnum fresh use INR env g = Ok ([1%nat], [match op, lft with BSub, false => -1 | _, _ => 1 end]) /\
      ~ right fresh use (axis_removed i s) env w x (geval Rnum fresh use INR env g).
Proof. exact C68_sum_refuted_lemma. Qed.
Print Assumptions C68_sum_refuted.

(** Finding: for the large tensor divided by the small one, the gradient's evaluation throws. *)
Theorem C68_quotient_refuted :
  forall fresh use gsame, (forall a b : @gexpr R, gsame a b = true -> a = b) ->
  forall (i : nat) (s : shape) (env : nat -> tens R) (w : nat) (e c : expr) (lc : list R) (ge : gexpr) (te : tens R),
    spreadable i s -> proper (axis_removed i s) env w e -> has_leaf w c = false -> (forall t, c <> EConst t) ->
    geval Rnum fresh use INR env (inj c) = Ok (s, lc) -> length lc = n_elems s ->
    gderive Rnum fresh use INR gsame env w (inj e) = Ok ge -> geval Rnum fresh use INR env ge = Ok te ->
    (forall u, ge <> GConst u) -> length (snd te) = n_elems (axis_removed i s) ->
    exists x g, gaxial Rnum gsame BDiv false i (inj c) (inj e) = Ok x /\
      gderive Rnum fresh use INR gsame env w x = Ok g /\ geval Rnum fresh use INR env g = Throw.
Proof. exact C68_quotient_refuted_lemma. Qed.
Print Assumptions C68_quotient_refuted.

(** A 2x3 tensor (extent 2 first), variable 0, and two numbers, variable 1, spread along axis 1:
    variable 1 and its exponential meet the conditions. *)
Example C68_nonvacuous :
  let s := [2; 3]%nat in let e := EUn UExp (EVar 1%nat) in let c := EVar 0%nat in
  let env := (fun v => match v with 0%nat => (s, [1; 2; 3; 4; 5; 6]) | _ => ([2]%nat, [7; 8]) end) : nat -> tens R in
  forall fresh use,
    spreadable 1 s /\ axis_removed 1 s = [2]%nat /\ proper [2]%nat env 1%nat e /\ proper [2]%nat env 1%nat (EVar 1%nat) /\ has_leaf 1%nat c = false /\
    geval Rnum fresh use INR env (inj c) = Ok (s, [1; 2; 3; 4; 5; 6]) /\
    (forall j, (j < 6)%nat -> nth j [1; 2; 3; 4; 5; 6] 0 <> 0) /\
    gderive Rnum fresh use INR (fun _ _ => false) env 1%nat (inj e) = Ok (GUn UExp (GVar 1%nat)) /\
    geval Rnum fresh use INR env (GUn UExp (GVar 1%nat)) = Ok ([2]%nat, map exp [7; 8]) /\
    gderive Rnum fresh use INR (fun _ _ => false) env 1%nat (inj (EVar 1%nat)) = Ok (GConst (const_scalar 1)) /\
    map (below 1 s) (seq 0 6) = [0; 1; 0; 1; 0; 1]%nat.
Proof. exact C68_nonvacuous_lemma. Qed.
