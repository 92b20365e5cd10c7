(** Generated by tools/genprops.py from TransformLaws.v: property statements only. *)
From Coq Require Import NArith.
From Verif Require Import Common ShapeModel ShapeSpec ShapeProofs FitModel FitProofs TransformModel TransformSpec TransformProofs CrossCorrProofs.
From Verif Require Import TransformLaws.

(** The fit operator fills the destination with the argument's element where the
    coordinate exists in the argument and zero elsewhere. *)
Theorem C08_fit_operator :
  forall (T : Type) (zero : T) (ins watch : shape) (src dest : list T),
    is_fully_defined ins = true -> is_fully_defined watch = true ->
    length src = n_elems ins -> length dest = n_elems watch ->
    exists dest', fit_op_fwd zero watch ins watch src dest = Ok dest' /\ length dest' = length dest /\
      forall c, in_bounds watch c ->
        (belongs ins c -> nth_error dest' (offset watch c) = nth_error src (offset ins c)) /\
        (~ belongs ins c -> nth_error dest' (offset watch c) = Some zero).
Proof. exact C08_fit_operator_lemma. Qed.
Print Assumptions C08_fit_operator.

Example C08_nonvacuous_operator :
  fit_op_fwd 0 [2; 3] [3; 2] [2; 3] [1; 2; 3; 4; 5; 6] (repeat 7 6) = Ok [1; 2; 4; 5; 0; 0].
Proof. exact C08_nonvacuous_operator_lemma. Qed.

(** For axes below the rank (in either order) the result shape has the two dimensions
    exchanged and as many elements, and after the forward pass the element at every
    coordinate is the argument's element at the exchanged coordinate, whatever the
    destination held before. *)
Theorem C16_transpose_elements :
  forall (T : Type) (ins : shape) (i j : nat) (src dest : list T),
    is_fully_defined ins = true -> i < length ins -> j < length ins ->
    length src = n_elems ins -> length dest = n_elems ins ->
    exists outs dest', transpose_shape (order_axes (i, j)) ins = Ok outs /\ outs = swapc i j ins /\
      n_elems outs = n_elems ins /\
      transpose_fwd (order_axes (i, j)) outs ins src dest = Ok dest' /\ length dest' = n_elems outs /\
      forall c, in_bounds outs c -> nth_error dest' (offset outs c) = nth_error src (offset ins (swapc i j c)).
Proof. exact C16_transpose_elements_lemma. Qed.
Print Assumptions C16_transpose_elements.

(** Transposing twice along the same axes restores the argument exactly. *)
Theorem C16_transpose_twice :
  forall (T : Type) (ins : shape) (i j : nat) (src d1 d2 : list T) outs t1,
    is_fully_defined ins = true -> i < length ins -> j < length ins ->
    length src = n_elems ins -> length d1 = n_elems ins -> length d2 = n_elems ins ->
    transpose_shape (order_axes (i, j)) ins = Ok outs ->
    transpose_fwd (order_axes (i, j)) outs ins src d1 = Ok t1 ->
    transpose_shape (order_axes (i, j)) outs = Ok ins /\
    transpose_fwd (order_axes (i, j)) ins outs t1 d2 = Ok src.
Proof. exact C16_transpose_twice_lemma. Qed.
Print Assumptions C16_transpose_twice.

(** Exchanging the last dimension with one beyond the rank inserts dimensions of size one
    and keeps every element. *)
Theorem C16_transpose_new_axis :
  forall (T : Type) (s : shape) (d k : nat) (ax : nat * nat) (src dest : list T),
    is_fully_defined (s ++ [d]) = true -> 0 < k -> ax = (length s, length s + k) \/ ax = (length s + k, length s) ->
    length src = n_elems (s ++ [d]) -> length dest = n_elems (s ++ [d]) ->
    exists dest', transpose_shape (order_axes ax) (s ++ [d]) = Ok (s ++ repeat 1 k ++ [d]) /\
      transpose_fwd (order_axes ax) (s ++ repeat 1 k ++ [d]) (s ++ [d]) src dest = Ok dest' /\
      forall c x, in_bounds s c -> x < d ->
        nth_error dest' (offset (s ++ repeat 1 k ++ [d]) (c ++ repeat 0 k ++ [x])) = nth_error src (offset (s ++ [d]) (c ++ [x])).
Proof. exact C16_transpose_new_axis_lemma. Qed.
Print Assumptions C16_transpose_new_axis.

(** Exchanging any other dimension with one beyond the rank keeps the storage order, which
    puts elements at wrong coordinates. *)
Theorem C16_transpose_new_axis_scrambles_refuted :
  exists outs dest', transpose_shape (0, 2) [2; 3] = Ok outs /\ outs = [1; 3; 2] /\
    transpose_fwd (0, 2) outs [2; 3] [10; 11; 12; 13; 14; 15] (repeat 0 6) = Ok dest' /\
    (* element (x=0, y=1) of the argument should be at (0, 1, 0) of the result *)
    nth_error [10; 11; 12; 13; 14; 15] (offset [2; 3] [0; 1]) = Some 12 /\
    nth_error dest' (offset outs [0; 1; 0]) = Some 11.
Proof. exact C16_transpose_new_axis_scrambles_refuted_lemma. Qed.
Print Assumptions C16_transpose_new_axis_scrambles_refuted.

(** When both axes are beyond the rank the destination is never written: it keeps whatever
    the fresh buffer held. *)
Theorem C16_transpose_beyond_rank_unwritten_refuted :
  forall (T : Type) (ins outs : shape) (i j : nat) (src dest : list T),
    length ins <= i -> i <= j -> transpose_fwd (order_axes (i, j)) outs ins src dest = Ok dest.
Proof. exact C16_transpose_beyond_rank_unwritten_refuted_lemma. Qed.
Print Assumptions C16_transpose_beyond_rank_unwritten_refuted.

Example C16_nonvacuous :
  transpose_shape (order_axes (2, 0)) [2; 1; 3] = Ok [3; 1; 2] /\
  transpose_fwd (order_axes (2, 0)) [3; 1; 2] [2; 1; 3] [1; 2; 3; 4; 5; 6] (repeat 0 6) = Ok [1; 3; 5; 2; 4; 6].
Proof. exact C16_nonvacuous_lemma. Qed.

(** extend along an existing axis: the dimension is multiplied and the element at each
    coordinate is the argument's element with that entry reduced modulo the old dimension. *)
Theorem C17_extend_elements :
  forall (T : Type) (ins : shape) (index m : nat) (src dest : list T),
    is_fully_defined ins = true -> index < length ins -> 0 < m ->
    length src = n_elems ins -> length dest = m * n_elems ins ->
    exists outs dest', extend_shape index m ins = Ok outs /\
      outs = set_nth index (nth index ins 0 * m) ins /\ n_elems outs = m * n_elems ins /\
      extend_fwd index outs ins src dest = Ok dest' /\ length dest' = n_elems outs /\
      forall c, in_bounds outs c ->
        in_bounds ins (set_nth index (nth index c 0 mod nth index ins 0) c) /\
        nth_error dest' (offset outs c) = nth_error src (offset ins (set_nth index (nth index c 0 mod nth index ins 0) c)).
Proof. exact C17_extend_elements_lemma. Qed.
Print Assumptions C17_extend_elements.

(** multiplier 0 gives the constant 0 and multiplier 1 the argument itself *)
Theorem C17_extend_trivial_multipliers :
  forall m, (extend_case m = ExtendZero <-> m = 0) /\ (extend_case m = ExtendSame <-> m = 1) /\
            (extend_case m = ExtendNode <-> 2 <= m).
Proof. exact C17_extend_trivial_multipliers_lemma. Qed.
Print Assumptions C17_extend_trivial_multipliers.

(** Extending along an axis that does not exist yet computes a result shape but then reads
    outside the dimension list. *)
Theorem C17_extend_new_axis_refuted :
  forall (T : Type) (ins outs : shape) (index : nat) (src dest : list T),
    length ins <= index -> extend_fwd index outs ins src dest = UB.
Proof. exact C17_extend_new_axis_refuted_lemma. Qed.
Print Assumptions C17_extend_new_axis_refuted.

Example C17_nonvacuous :
  extend_shape 0 2 [2; 2] = Ok [4; 2] /\
  extend_fwd 0 [4; 2] [2; 2] [1; 2; 3; 4] (repeat 0 8) = Ok [1; 2; 1; 2; 3; 4; 3; 4] /\
  extend_shape 2 3 [2] = Ok [2; 1; 3].
Proof. exact C17_nonvacuous_lemma. Qed.

(** The result shape of a reduction along an axis: the axis disappears when it is first or
    last and becomes 1 in the middle (a rank-1 argument gives [1]); an axis beyond the
    rank keeps the shape. *)
Theorem C18_reduced_shape :
  forall (ins : shape) (idx : nat), is_fully_defined ins = true ->
    (length ins <= idx -> compress_shape idx ins = Ok ins) /\
    (idx < length ins ->
       compress_shape idx ins = Ok (if length ins =? 1 then [1]
                                    else if idx =? 0 then skipn 1 ins
                                    else if idx =? length ins - 1 then firstn idx ins
                                    else set_nth idx 1 ins) /\
       forall outs, compress_shape idx ins = Ok outs -> n_elems outs * nth idx ins 0 = n_elems ins).
Proof. exact C18_reduced_shape_lemma. Qed.
Print Assumptions C18_reduced_shape.

(** Reducing along an axis below the rank: the element at every coordinate (with 0 in the
    reduced axis) is the left fold, in axis order, of exactly the argument's elements that
    differ only in that axis. Holds for any collector, so for reduce_sum and reduce_max. *)
Theorem C18_compress_folds_axis :
  forall (T : Type) (f : T -> T -> T) (d0 : T) (ins outs : shape) (idx : nat) (src dest : list T),
    is_fully_defined ins = true -> idx < length ins -> compress_shape idx ins = Ok outs ->
    length src = n_elems ins -> length dest = n_elems outs ->
    exists dest', compress_fwd f idx outs ins src dest = Ok dest' /\ length dest' = n_elems outs /\
      forall c, in_bounds (set_nth idx 1 ins) c ->
        nth_error dest' (offset (set_nth idx 1 ins) c) = Some (fold1 f d0 (along d0 ins src idx c)).
Proof. exact C18_compress_folds_axis_lemma. Qed.
Print Assumptions C18_compress_folds_axis.

(** every argument element belongs to exactly one of those fibres, at one place *)
Theorem C18_fibres_partition :
  forall (ins : shape) (idx : nat) (c : list nat), idx < length ins -> in_bounds ins c ->
    exists! p : list nat * nat,
      in_bounds (set_nth idx 1 ins) (fst p) /\ snd p < nth idx ins 0 /\ set_nth idx (snd p) (fst p) = c.
Proof. exact C18_fibres_partition_lemma. Qed.
Print Assumptions C18_fibres_partition.

(** without an axis, the single result element is the fold of all elements in order *)
Theorem C18_compress_all :
  forall (T : Type) (f : T -> T -> T) (d0 : T) (ins : shape) (src dest : list T),
    is_fully_defined ins = true -> length src = n_elems ins -> length dest = n_elems (compress_all_shape ins) ->
    compress_all_fwd f ins src dest = Ok [fold1 f d0 src].
Proof. exact C18_compress_all_lemma. Qed.
Print Assumptions C18_compress_all.

(** an axis beyond the rank: the result is a copy of the argument *)
Theorem C18_compress_beyond_rank_copies :
  forall (T : Type) (f : T -> T -> T) (ins : shape) (idx : nat) (src dest : list T),
    is_fully_defined ins = true -> length ins <= idx ->
    length src = n_elems ins -> length dest = n_elems ins ->
    compress_fwd f idx ins ins src dest = Ok src.
Proof. exact C18_compress_beyond_rank_copies_lemma. Qed.
Print Assumptions C18_compress_beyond_rank_copies.

Example C18_nonvacuous :
  compress_shape 1 [2; 3; 2] = Ok [2; 1; 2] /\
  compress_fwd Nat.add 1 [2; 1; 2] [2; 3; 2] [1; 2; 3; 4; 5; 6; 7; 8; 9; 10; 11; 12] (repeat 0 4) = Ok [9; 12; 27; 30] /\
  compress_shape 0 [2; 3] = Ok [3] /\ compress_fwd Nat.max 0 [3] [2; 3] [1; 2; 4; 3; 5; 6] (repeat 0 3) = Ok [2; 4; 6] /\
  compress_all_fwd Nat.add [2; 3] [1; 2; 4; 3; 5; 6] [0] = Ok [21].
Proof. exact C18_nonvacuous_lemma. Qed.

(** arg_max along an axis returns, for every coordinate, the position of the first maximum
    among exactly the elements along that axis. *)
Theorem C19_arg_max_axis :
  forall (T : Type) (lt : T -> T -> bool) (of_nat : nat -> T) (d0 : T) (ins outs : shape) (idx : nat) (src dest : list T),
    strict_order lt ->
    is_fully_defined ins = true -> idx < length ins -> arg_compress_shape idx ins = Ok outs ->
    length src = n_elems ins -> length dest = n_elems outs ->
    exists dest', arg_compress_fwd (arg_max_search lt of_nat) idx outs ins src dest = Ok dest' /\
      length dest' = n_elems outs /\ compress_shape idx ins = Ok outs /\
      forall c, in_bounds (set_nth idx 1 ins) c ->
        exists k, nth_error dest' (offset (set_nth idx 1 ins) c) = Some (of_nat k) /\
          k < nth idx ins 0 /\ first_max lt d0 (along d0 ins src idx c) k.
Proof. exact C19_arg_max_axis_lemma. Qed.
Print Assumptions C19_arg_max_axis.

(** an axis beyond the rank is rejected *)
Theorem C19_arg_max_bad_axis_throws :
  forall (ins : shape) (idx : nat), is_fully_defined ins = true -> length ins <= idx ->
    arg_compress_shape idx ins = Throw.
Proof. exact C19_arg_max_bad_axis_throws_lemma. Qed.
Print Assumptions C19_arg_max_bad_axis_throws.

(** without an axis, element 0 is the flat position of the first maximum of all elements *)
Theorem C19_arg_max_all :
  forall (T : Type) (lt : T -> T -> bool) (of_nat : nat -> T) (d0 : T) (ins : shape) (src dest : list T),
    strict_order lt -> is_fully_defined ins = true -> length src = n_elems ins ->
    length dest = n_elems (arg_compress_all_shape ins) ->
    exists k, arg_compress_all_fwd (arg_max_search lt of_nat) ins src dest = Ok (set_nth 0 (of_nat k) dest) /\
      first_max lt d0 src k.
Proof. exact C19_arg_max_all_lemma. Qed.
Print Assumptions C19_arg_max_all.

(** The result is declared with as many elements as the argument has dimensions, but only
    the first is ever written. *)
Theorem C19_arg_max_all_shape_refuted :
  arg_compress_all_shape [2; 3] = [2] /\
  forall junk, arg_compress_all_fwd (arg_max_search Nat.ltb (fun n => n)) [2; 3] [1; 5; 2; 0; 9; 3] [junk; junk] = Ok [4; junk].
Proof. exact C19_arg_max_all_shape_refuted_lemma. Qed.
Print Assumptions C19_arg_max_all_shape_refuted.

Example C19_nonvacuous :
  strict_order Nat.ltb /\
  arg_compress_fwd (arg_max_search Nat.ltb (fun n => n)) 0 [2] [3; 2] [1; 7; 7; 4; 2; 3] [0; 0] = Ok [1; 0] /\
  first_max Nat.ltb 0 [1; 7; 7] 1.
Proof. exact C19_nonvacuous_lemma. Qed.

(** flip keeps the shape; the element at each coordinate is the argument's element at the
    coordinate mirrored in the listed axes (an axis listed twice counts as not listed). *)
Theorem C20_flip_elements :
  forall (T : Type) (ins : shape) (dims : list nat) (src dest : list T),
    is_fully_defined ins = true -> Forall (fun d => d < length ins) dims ->
    length src = n_elems ins -> length dest = n_elems ins ->
    flip_shape ins = ins /\
    exists dest', flip_fwd dims ins ins src dest = Ok dest' /\ length dest' = n_elems ins /\
      forall c, in_bounds ins c -> nth_error dest' (offset ins c) = nth_error src (offset ins (mirror ins dims c)).
Proof. exact C20_flip_elements_lemma. Qed.
Print Assumptions C20_flip_elements.

(** flipping twice restores the argument *)
Theorem C20_flip_twice :
  forall (T : Type) (ins : shape) (dims : list nat) (src d1 d2 t1 : list T),
    is_fully_defined ins = true -> Forall (fun d => d < length ins) dims ->
    length src = n_elems ins -> length d1 = n_elems ins -> length d2 = n_elems ins ->
    flip_fwd dims ins ins src d1 = Ok t1 -> flip_fwd dims ins ins t1 d2 = Ok src.
Proof. exact C20_flip_twice_lemma. Qed.
Print Assumptions C20_flip_twice.

(** An axis not below the rank is not rejected: the forward pass writes outside the
    coordinate vector. *)
Theorem C20_flip_bad_axis_refuted :
  forall (T : Type) (ins : shape) (d : nat) (src dest : list T),
    is_fully_defined ins = true -> length ins <= d -> flip_fwd [d] ins ins src dest = UB.
Proof. exact C20_flip_bad_axis_refuted_lemma. Qed.
Print Assumptions C20_flip_bad_axis_refuted.

Example C20_nonvacuous :
  flip_fwd [1; 0] [2; 2] [2; 2] [1; 2; 3; 4] (repeat 0 4) = Ok [4; 3; 2; 1] /\
  flip_fwd [0] [3; 2] [3; 2] [1; 2; 3; 4; 5; 6] (repeat 0 6) = Ok [3; 2; 1; 6; 5; 4] /\ mirror [3; 2] [0] [0; 1] = [2; 1].
Proof. exact C20_nonvacuous_lemma. Qed.

(** The declared shape has image - filter - 1 positions per correlated axis, two fewer than
    the number of windows (image - filter + 1). *)
Theorem C48_cross_corr_shape :
  forall (d1 d2 : nat) (img filt : list N) (i1 f1 i2 f2 : N),
    d1 <> d2 -> nth_error img d1 = Some i1 -> nth_error img d2 = Some i2 ->
    nth_error filt d1 = Some f1 -> nth_error filt d2 = Some f2 ->
    (f1 + 1 <= i1)%N -> (f2 + 1 <= i2)%N -> (i1 < 2 ^ 64)%N -> (i2 < 2 ^ 64)%N ->
    cross_corr_shape d1 d2 img filt = Ok (set_nth d2 (i2 - f2 - 1)%N (set_nth d1 (i1 - f1 - 1)%N img)).
Proof. exact C48_cross_corr_shape_lemma. Qed.
Print Assumptions C48_cross_corr_shape.

(** A filter as large as the image makes the dimension wrap around to 2^64 - 1. *)
Theorem C48_cross_corr_shape_wraps_refuted :
  cross_corr_shape 0 1 [3; 5]%N [3; 2]%N = Ok [2 ^ 64 - 1; 2]%N.
Proof. exact C48_cross_corr_shape_wraps_refuted_lemma. Qed.
Print Assumptions C48_cross_corr_shape_wraps_refuted.

(** The values never depend on the filter's data: the image itself is used as the filter. *)
Theorem C48_cross_corr_ignores_filter_refuted :
  forall (T : Type) (zero : T) (add mul : T -> T -> T) d1 d2 outs ins (img filt1 filt2 dest : list T),
    cross_corr_fwd zero add mul d1 d2 outs ins img filt1 dest =
    cross_corr_fwd zero add mul d1 d2 outs ins img filt2 dest.
Proof. exact C48_cross_corr_ignores_filter_refuted_lemma. Qed.
Print Assumptions C48_cross_corr_ignores_filter_refuted.

(** A 4x4 image with a 2x2 filter reads outside the image. *)
Theorem C48_cross_corr_out_of_bounds_refuted :
  exists outs, cross_corr_shape 0 1 [4; 4]%N [2; 2]%N = Ok outs /\ outs = [1; 1]%N /\
    cross_corr_fwd 0 Nat.add Nat.mul 0 1 [1; 1] [4; 4] (seq 0 16) (repeat 1 4) [0] = UB.
Proof. exact C48_cross_corr_out_of_bounds_refuted_lemma. Qed.
Print Assumptions C48_cross_corr_out_of_bounds_refuted.

(** For every image and every filter that leave at least one output position along both
    axes, given in increasing order as the default {0, 1} is, evaluating the correlation reads outside the image's buffer. *)
Theorem C48_cross_corr_always_out_of_bounds_refuted :
  forall (T : Type) (zero : T) (add mul : T -> T -> T) (d1 d2 : nat) (ins : shape) (i1 i2 f1 f2 : nat) (img filt dest : list T),
    is_fully_defined ins = true -> d1 < d2 ->
    nth_error ins d1 = Some i1 -> nth_error ins d2 = Some i2 ->
    1 <= f1 -> 1 <= f2 -> f1 + 1 < i1 -> f2 + 1 < i2 -> length img = n_elems ins ->
    cross_corr_fwd zero add mul d1 d2 (set_nth d2 (i2 - f2 - 1) (set_nth d1 (i1 - f1 - 1) ins)) ins img filt dest = UB.
Proof. exact C48_cross_corr_always_out_of_bounds_refuted_lemma. Qed.
Print Assumptions C48_cross_corr_always_out_of_bounds_refuted.

(** With the axes in decreasing order the reads can stay inside the buffer, but are not the
    window's: the coordinate along the second axis is not reset between rounds, so the last
    round reads the first element of the next row (27 = 9 * 3). Adding keeps the last product
    here and multiplying the image's element, so that the result shows what was read last. *)
Theorem C48_cross_corr_reversed_axes_refuted :
  exists d, cross_corr_fwd 0 (fun _ y => y) (fun x _ => x) 1 0 [7; 2] [9; 4] (seq 0 36) [1; 1] (repeat 5 14) = Ok d /\ nth 13 d 0 = 27.
Proof. exact C48_cross_corr_reversed_axes_refuted_lemma. Qed.
Print Assumptions C48_cross_corr_reversed_axes_refuted.

Example C48_nonvacuous :
  cross_corr_shape 0 1 [5; 9]%N [2; 2]%N = Ok [2; 6]%N /\
  cross_corr_fwd 0 Nat.add Nat.mul 0 1 [2; 6; 2] [5; 9; 2] (seq 0 90) [1; 1; 1; 1] (repeat 0 24) = UB.
Proof. exact C48_nonvacuous_lemma. Qed.
