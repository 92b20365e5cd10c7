(** Generated by tools/genprops.py from AxGradLaws.v: property statements only. *)
From Coq Require Import Reals Lra Lia.
From Verif Require Import Common ShapeModel ShapeSpec ShapeProofs TransformSpec TransformModel TransformProofs TransformLaws MatmulSpec MatmulModel ElemSpec ElemModel ElemProofs CseModel NumSpec RealNum ElemLaws GradModel GradSpec GradProofs GradLaws NetSpec NetProofs NetMlpProofs NetLaws GroupModel GroupProofs CoordSum ShapeGradSpec ShapeGradLaws SumGradLaws.
Local Open Scope R_scope.
From Verif Require RbmTrainProofs.
From Verif Require ShapeLaws.
From Verif Require Import AxGradLaws.

(** Sum and difference of a large tensor (computed from w) and a small one spread along an axis:
    the gradient with respect to w is right, whichever argument is the large one. *)
Theorem C67_sum :
  forall fresh use gsame, (forall a b : @gexpr R, gsame a b = true -> a = b) ->
  forall (op : bop) (lft : bool) (i : nat) (s : shape) (env : nat -> tens R) (w : nat) (e c : expr) (lc : list R),
    op = BAdd \/ op = BSub -> spreadable i s -> proper s env w e -> has_leaf w c = false -> (forall t, c <> EConst t) ->
    geval Rnum fresh use INR env (inj c) = Ok (axis_removed i s, lc) -> length lc = n_elems (axis_removed i s) ->
    exists x g, gaxial Rnum gsame op lft i (if lft then inj c else inj e) (if lft then inj e else inj c) = Ok x /\
      gderive Rnum fresh use INR gsame env w x = Ok g /\ right fresh use s env w x (geval Rnum fresh use INR env g).
Proof. exact C67_sum_lemma. Qed.
Print Assumptions C67_sum.

(** The product: the gradient is right if that of the large argument is not a constant node and
    has all elements. *)
Theorem C67_product :
  forall fresh use gsame, (forall a b : @gexpr R, gsame a b = true -> a = b) ->
  forall (lft : bool) (i : nat) (s : shape) (env : nat -> tens R) (w : nat) (e c : expr) (lc : list R) (ge : gexpr) (te : tens R),
    spreadable i s -> proper s env w e -> has_leaf w c = false -> (forall t, c <> EConst t) ->
    geval Rnum fresh use INR env (inj c) = Ok (axis_removed i s, lc) -> length lc = n_elems (axis_removed i s) ->
    gderive Rnum fresh use INR gsame env w (inj e) = Ok ge -> (forall t, ge <> GConst t) ->
    geval Rnum fresh use INR env ge = Ok te -> length (snd te) = n_elems s ->
    exists x g, gaxial Rnum gsame BMul lft i (if lft then inj c else inj e) (if lft then inj e else inj c) = Ok x /\
      gderive Rnum fresh use INR gsame env w x = Ok g /\ right fresh use s env w x (geval Rnum fresh use INR env g).
Proof. exact C67_product_lemma. Qed.
Print Assumptions C67_product.

(** The small tensor divided by the large one, where the latter is nonzero: right on the same
    condition. *)
Theorem C67_quotient :
  forall fresh use gsame, (forall a b : @gexpr R, gsame a b = true -> a = b) ->
  forall (i : nat) (s : shape) (env : nat -> tens R) (w : nat) (e c : expr) (lc : list R) (ge : gexpr) (te : tens R),
    spreadable i s -> proper s env w e -> has_leaf w c = false -> (forall t, c <> EConst t) ->
    geval Rnum fresh use INR env (inj c) = Ok (axis_removed i s, lc) -> length lc = n_elems (axis_removed i s) ->
    (forall j, (j < n_elems s)%nat -> den j (fun v => at_ (env v) j) e <> 0) ->
    gderive Rnum fresh use INR gsame env w (inj e) = Ok ge -> (forall t, ge <> GConst t) ->
    geval Rnum fresh use INR env ge = Ok te -> length (snd te) = n_elems s ->
    exists x g, gaxial Rnum gsame BDiv true i (inj c) (inj e) = Ok x /\
      gderive Rnum fresh use INR gsame env w x = Ok g /\ right fresh use s env w x (geval Rnum fresh use INR env g).
Proof. exact C67_quotient_lemma. Qed.
Print Assumptions C67_quotient.

(** Finding: if the gradient of the large argument is the number v (as for the variable itself,
    where v is 1), derive gives v times the small tensor, of the small layout: not spread along
    the axis, so no gradient. *)
Theorem C67_product_refuted :
  forall fresh use gsame, (forall a b : @gexpr R, gsame a b = true -> a = b) ->
  forall (lft : bool) (i : nat) (s : shape) (env : nat -> tens R) (w : nat) (e c : expr) (lc : list R) (v : R),
    spreadable i s -> proper s env w e -> has_leaf w c = false -> (forall t, c <> EConst t) ->
    geval Rnum fresh use INR env (inj c) = Ok (axis_removed i s, lc) -> length lc = n_elems (axis_removed i s) ->
    v <> 0 -> v <> -1 -> gderive Rnum fresh use INR gsame env w (inj e) = Ok (GConst (const_scalar v)) ->
    exists x g, gaxial Rnum gsame BMul lft i (if lft then inj c else inj e) (if lft then inj e else inj c) = Ok x /\
      gderive Rnum fresh use INR gsame env w x = Ok g /\
      geval Rnum fresh use INR env g = Ok (axis_removed i s, map (Rmult v) lc) /\
      ~ right fresh use s env w x (geval Rnum fresh use INR env g).
Proof. exact C67_product_refuted_lemma. Qed.
Print Assumptions C67_product_refuted.

(** Finding: of the large tensor divided by the small one, derive builds a gradient whose
    evaluation throws: the square of the divisor is not spread along the axis. *)
Theorem C67_quotient_refuted :
  forall fresh use gsame, (forall a b : @gexpr R, gsame a b = true -> a = b) ->
  forall (i : nat) (s : shape) (env : nat -> tens R) (w : nat) (e c : expr) (lc : list R) (ge : gexpr) (te : tens R),
    spreadable i s -> proper s env w e -> has_leaf w c = false -> (forall t, c <> EConst t) ->
    geval Rnum fresh use INR env (inj c) = Ok (axis_removed i s, lc) -> length lc = n_elems (axis_removed i s) ->
    gderive Rnum fresh use INR gsame env w (inj e) = Ok ge -> (forall t, ge <> GConst t) ->
    geval Rnum fresh use INR env ge = Ok te -> length (snd te) = n_elems s ->
    exists x g, gaxial Rnum gsame BDiv false i (inj e) (inj c) = Ok x /\
      gderive Rnum fresh use INR gsame env w x = Ok g /\ geval Rnum fresh use INR env g = Throw.
Proof. exact C67_quotient_refuted_lemma. Qed.
Print Assumptions C67_quotient_refuted.

(** A 2x3 tensor (extent 2 first): variable 0 large, variable 1 the two numbers spread along
    axis 1. exp of variable 0 meets the conditions of the first three theorems and of the last,
    variable 0 itself those of the fourth. *)
Example C67_nonvacuous :
  let s := [2; 3]%nat in let e := EUn UExp (EVar 0%nat) in let c := EVar 1%nat in
  let env := (fun v => match v with 0%nat => (s, [1; 2; 3; 4; 5; 6]) | _ => ([2]%nat, [7; 8]) end) : nat -> tens R in
  forall fresh use,
    spreadable 1 s /\ axis_removed 1 s = [2]%nat /\ proper s env 0%nat e /\ proper s env 0%nat (EVar 0%nat) /\ has_leaf 0%nat c = false /\
    geval Rnum fresh use INR env (inj c) = Ok (axis_removed 1 s, [7; 8]) /\
    (forall j, (j < n_elems s)%nat -> den j (fun v => at_ (env v) j) e <> 0) /\
    gderive Rnum fresh use INR (fun _ _ => false) env 0%nat (inj e) = Ok (GUn UExp (GVar 0%nat)) /\
    geval Rnum fresh use INR env (GUn UExp (GVar 0%nat)) = Ok (s, map exp [1; 2; 3; 4; 5; 6]) /\
    gderive Rnum fresh use INR (fun _ _ => false) env 0%nat (inj (EVar 0%nat)) = Ok (GConst (const_scalar 1)) /\
    map (below 1 s) (seq 0 6) = [0; 1; 0; 1; 0; 1]%nat.
Proof. exact C67_nonvacuous_lemma. Qed.
