(** Generated by tools/genprops.py from NodeLaws.v: property statements only. *)
From Coq Require Import NArith Lia.
From Verif Require Import Common ShapeModel ShapeSpec ShapeProofs FitModel FitProofs TransformModel TransformSpec TransformProofs ElemModel ElemProofs CseModel TransformLaws ConvModel ConvLaws.
From Verif Require Import NodeLaws.

(** The node made by fit has the shape of its second argument; where a coordinate exists in
    the first argument it has that argument's element, elsewhere zero. The second argument's
    elements do not matter. *)
Theorem C08_fit_node :
  forall (T : Type) (N : num T) (fresh : nat -> T) (use : bool) (of_nat : nat -> T) (ins watch : shape) (src other : list T),
    is_fully_defined ins = true -> is_fully_defined watch = true -> length src = n_elems ins ->
    exists d, sem N fresh use of_nat KFit [(ins, src); (watch, other)] = Ok (watch, d) /\ length d = n_elems watch /\
      forall c, in_bounds watch c ->
        (belongs ins c -> nth_error d (offset watch c) = nth_error src (offset ins c)) /\
        (~ belongs ins c -> nth_error d (offset watch c) = Some (n_zero N)).
Proof. exact C08_fit_node_lemma. Qed.
Print Assumptions C08_fit_node.

(** Dividing a number by the constant zero throws. *)
Theorem C25_div_by_constant_zero :
  forall (T : Type) (N : num T) (fresh : nat -> T) (c z : T) (s : shape),
    n_eqb N (n_zero N) z = true -> build_unary N fresh (UDivL c) (NConst (s, [z])) = Throw.
Proof. exact C25_div_by_constant_zero_lemma. Qed.
Print Assumptions C25_div_by_constant_zero.

(** The node made by cross_corr2d, the filter smaller than the image: an output dimension of
    zero throws, and otherwise the operation leaves the buffers. *)
Theorem C48_cross_corr_node_refuted :
  forall (T : Type) (N : num T) (fresh : nat -> T) (use : bool) (of_nat : nat -> T) (d1 d2 : nat) (img filt : shape) (i1 i2 f1 f2 : nat) (a b : list T),
    is_fully_defined img = true -> is_fully_defined filt = true -> d1 < d2 ->
    nth_error img d1 = Some i1 -> nth_error img d2 = Some i2 -> nth_error filt d1 = Some f1 -> nth_error filt d2 = Some f2 ->
    f1 + 1 <= i1 -> f2 + 1 <= i2 -> (N.of_nat i1 < 2 ^ 64)%N -> (N.of_nat i2 < 2 ^ 64)%N -> length a = n_elems img ->
    sem N fresh use of_nat (KCorr d1 d2) [(img, a); (filt, b)] = (if (i1 =? f1 + 1) || (i2 =? f2 + 1) then Throw else UB).
Proof. exact C48_cross_corr_node_refuted_lemma. Qed.
Print Assumptions C48_cross_corr_node_refuted.

(** fit of a 2x2 tensor to 3x1, and a 4x4 image with a 3x2 and a 2x2 filter *)
Example C08_node_nonvacuous :
  let N := {| n_zero := 0; n_one := 1; n_two := 2; n_add := Nat.add; n_sub := Nat.sub; n_mul := Nat.mul; n_div := Nat.div; n_neg := fun x => x; n_abs := fun x => x;
     n_sin := fun x => x; n_cos := fun x => x; n_tan := fun x => x; n_exp := fun x => x; n_sqrt := Nat.sqrt; n_round := fun x => x; n_log := fun x => x; n_pow := Nat.pow;
     n_eqb := Nat.eqb; n_ltb := Nat.ltb |} in
  let run op ts := sem N (fun n => n) false (fun n => n) op ts in
  run KFit [([2; 2], [5; 6; 7; 8]); ([3; 1], [1; 1; 1])] = Ok ([3; 1], [5; 6; 0]) /\
  run (KCorr 0 1) [([4; 4], repeat 1 16); ([3; 2], repeat 1 6)] = Throw /\
  run (KCorr 0 1) [([4; 4], repeat 1 16); ([2; 2], repeat 1 4)] = UB /\
  build_unary N (fun n => n) (UDivL 3) (NConst ([1], [0])) = Throw.
Proof. exact C08_node_nonvacuous_lemma. Qed.
