(** Generated by tools/genprops.py from SumGradLaws.v: property statements only. *)
From Coq Require Import Reals Lra Lia.
From Verif Require Import Common ShapeModel ShapeSpec ShapeProofs TransformSpec TransformModel TransformProofs TransformLaws MatmulSpec MatmulModel ElemSpec ElemModel ElemProofs CseModel NumSpec RealNum ElemLaws GradModel GradSpec GradProofs GradLaws NetSpec NetProofs NetMlpProofs NetLaws GroupModel GroupProofs CoordSum ShapeGradSpec ShapeGradLaws.
Local Open Scope R_scope.
From Verif Require RbmTrainProofs.
From Verif Require LeafLaws ShapeLaws.
From Verif Require Import SumGradLaws.

(** Two sums along different axes whose results have the same shape: the gradient of their sum
    is right. *)
Theorem C66_other_axes :
  forall fresh use gsame, (forall a b : @gexpr R, gsame a b = true -> a = b) ->
  forall (s : shape) (env : nat -> tens R) (w : nat) (a b : expr) (i j : nat),
    proper s env w a -> proper s env w b -> i <> j -> (i < length s)%nat -> (j < length s)%nat -> axis_removed i s = axis_removed j s ->
    exists x g, gbinary Rnum gsame BAdd (GSum (Some i) (inj a)) (GSum (Some j) (inj b)) = Ok x /\
      gderive Rnum fresh use INR gsame env w x = Ok g /\ right fresh use s env w x (geval Rnum fresh use INR env g).
Proof. exact C66_other_axes_lemma. Qed.
Print Assumptions C66_other_axes.

(** Two sums along the same axis. With g1, g2 the gradients of the two summed expressions, the
    gradient of their sum is right if g2 has a single element or the axis has extent one (or is
    the only one).
    Findings: the gradients carry the mark that makes operator+ take its second argument for a
    tensor without the axis, although here both have it. If both gradients have all elements
    the evaluation throws, unless the axis has extent one; if the first has a single element
    and the second all, it reads beyond the first; an axis not below the rank (for which
    reduce_sum is the identity) leads to a write outside a vector. *)
Theorem C66_same_axis :
  forall fresh use gsame, (forall a b : @gexpr R, gsame a b = true -> a = b) ->
  forall (s : shape) (env : nat -> tens R) (w : nat) (a b : expr) (i : nat),
    proper s env w a -> proper s env w b ->
    exists x g g1 g2 t1 t2, gbinary Rnum gsame BAdd (GSum (Some i) (inj a)) (GSum (Some i) (inj b)) = Ok x /\
      gderive Rnum fresh use INR gsame env w x = Ok g /\
      gderive Rnum fresh use INR gsame env w (inj a) = Ok g1 /\ geval Rnum fresh use INR env g1 = Ok t1 /\
      gderive Rnum fresh use INR gsame env w (inj b) = Ok g2 /\ geval Rnum fresh use INR env g2 = Ok t2 /\
      (length (snd t1) = n_elems s \/ length (snd t1) = 1%nat) /\ (length (snd t2) = n_elems s \/ length (snd t2) = 1%nat) /\
      (length (snd t2) = 1%nat -> right fresh use s env w x (geval Rnum fresh use INR env g)) /\
      (length (snd t2) = n_elems s -> length (snd t1) = n_elems s -> (i < length s)%nat -> length s = 1%nat \/ nth i s 0%nat = 1%nat ->
         right fresh use s env w x (geval Rnum fresh use INR env g)) /\
      (length (snd t2) = n_elems s -> length (snd t1) = n_elems s -> (i < length s)%nat -> length s <> 1%nat -> nth i s 0%nat <> 1%nat ->
         geval Rnum fresh use INR env g = Throw) /\
      (length (snd t2) = n_elems s -> length (snd t1) = 1%nat \/ (length s <= i)%nat -> geval Rnum fresh use INR env g = UB).
Proof. exact C66_same_axis_lemma. Qed.
Print Assumptions C66_same_axis.

(** All the cases occur: for a variable with four elements as a 2x2 matrix, sin x summed along
    axis 0 plus exp x along axis 1 has the right gradient, both along axis 0 throw, x plus
    sin x reads out of bounds, and both along axis 1 of a 4x1 matrix are right again. *)
Example C66_nonvacuous :
  let e1 := EUn USin (EVar 0%nat) in let e2 := EUn UExp (EVar 0%nat) in
  forall fresh use, let env s := (fun _ => (s, [1; 2; 3; 4])) : nat -> tens R in
  let grad s i j a b := (x <- gbinary Rnum (fun _ _ => false) BAdd (GSum (Some i) (inj a)) (GSum (Some j) (inj b)) ;;
                         g <- gderive Rnum fresh use INR (fun _ _ => false) (env s) 0%nat x ;; geval Rnum fresh use INR (env s) g) in
  (forall s, s = [2; 2]%nat \/ s = [4; 1]%nat -> proper s (env s) 0%nat (EVar 0%nat) /\ proper s (env s) 0%nat e1 /\ proper s (env s) 0%nat e2) /\
  (exists t, grad [2; 2]%nat 0%nat 1%nat e1 e2 = Ok t) /\
  grad [2; 2]%nat 0%nat 0%nat e1 e2 = Throw /\
  grad [2; 2]%nat 0%nat 0%nat (EVar 0%nat) e1 = UB /\
  (exists t, grad [4; 1]%nat 1%nat 1%nat e1 e2 = Ok t) /\
  grad [2; 2]%nat 2%nat 2%nat e1 e2 = UB.
Proof. exact C66_nonvacuous_lemma. Qed.
