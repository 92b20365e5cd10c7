(** Generated by tools/genprops.py from MatmulLaws.v: property statements only. *)
From Coq Require Import Ring Ring_theory ZArith.
From Verif Require Import Common ShapeModel ShapeSpec ShapeProofs FitModel FitProofs TransformModel TransformSpec TransformProofs TransformLaws.
From Verif Require Import MemModel MemProofs MatmulModel MatmulSpec MatmulProofs Matmul2Proofs.
From Verif Require Import MatmulLaws.

(** Result shape: for fully defined shapes whose ranks are both above two, the product is
    accepted exactly when the inner dimensions agree (number of columns of the first, rows of
    the second) and the dimensions beyond the second agree up to trailing ones; the result is
    columns of the second, rows of the first, then the batch dimensions. Anything else
    throws. *)
Theorem C21_matmul_shape :
  forall al bl : shape, is_fully_defined al = true -> is_fully_defined bl = true ->
    2 < length al -> 2 < length bl ->
    (forall outs, matmul_shaper al bl = Ok outs <->
       nth 0 al 1 = nth 1 bl 1 /\ exists beyond, same_batch al bl beyond /\ outs = nth 0 bl 1 :: nth 1 al 1 :: beyond) /\
    (~ (nth 0 al 1 = nth 1 bl 1 /\ exists beyond, same_batch al bl beyond) -> matmul_shaper al bl = Throw).
Proof. exact C21_matmul_shape_lemma. Qed.
Print Assumptions C21_matmul_shape.

(** When one of the ranks is at most two, the dimensions of the other beyond the second are
    not looked at. *)
Theorem C21_matmul_shape_low_rank :
  forall al bl : shape, is_fully_defined al = true -> is_fully_defined bl = true ->
    length al <= 2 \/ length bl <= 2 ->
    (nth 0 al 1 = nth 1 bl 1 -> matmul_shaper al bl = Ok [nth 0 bl 1; nth 1 al 1]) /\
    (nth 0 al 1 <> nth 1 bl 1 -> matmul_shaper al bl = Throw).
Proof. exact C21_matmul_shape_low_rank_lemma. Qed.
Print Assumptions C21_matmul_shape_low_rank.

(** The product itself, with the plain triple loop (a build without ENABLE_STRASSEN): for
    arguments of any rank whose shapes are accepted and whose batch sizes agree, the forward
    pass reads and writes only inside the three buffers, leaves the arguments alone, and the
    element at column x, row y and batch coordinate rest is the inner product of row y of the
    first argument and column x of the second. No algebraic law of the element type is
    needed. *)
Theorem C21_matmul_elements :
  forall (T : Type) (zero : T) (add sub mul : T -> T -> T) fresh (al bl outs : shape) (dest a b : list T),
    is_fully_defined al = true -> is_fully_defined bl = true ->
    matmul_shaper al bl = Ok outs -> prod (skipn 2 al) = prod (skipn 2 bl) ->
    length a = n_elems al -> length b = n_elems bl -> length dest = n_elems outs ->
    exists dest' k, matmul_fwd zero add sub mul fresh false STRASSEN_THRESHOLD al bl (0, 0) (1, 0) (2, 0) [dest; a; b]
        = Ok (dest' :: a :: b :: repeat [] k) /\
      length dest' = n_elems outs /\
      forall x y rest, in_bounds outs (x :: y :: rest) -> nth_error dest' (offset outs (x :: y :: rest)) =
        Some (sumn zero add (fun z => mul (elem zero al a (z :: y :: rest)) (elem zero bl b (x :: z :: rest))) (nth 0 al 1)).
Proof. exact C21_matmul_elements_lemma. Qed.
Print Assumptions C21_matmul_elements.

(** Both matrices optionally transposed: the transposes are separate nodes whose result is
    passed on, and the product is that of the transposed matrices. *)
Theorem C21_matmul_transposed :
  forall (T : Type) (zero : T) (add sub mul : T -> T -> T) fresh (tA tB : bool) (al bl al' bl' outs : shape) (dest a b a0 b0 a' b' : list T),
    is_fully_defined al = true -> is_fully_defined bl = true ->
    length a = n_elems al -> length b = n_elems bl -> length a0 = n_elems al -> length b0 = n_elems bl ->
    (if tA then transpose_shape (order_axes (0, 1)) al = Ok al' /\ transpose_fwd (order_axes (0, 1)) al' al a a0 = Ok a'
     else al' = al /\ a' = a) ->
    (if tB then transpose_shape (order_axes (0, 1)) bl = Ok bl' /\ transpose_fwd (order_axes (0, 1)) bl' bl b b0 = Ok b'
     else bl' = bl /\ b' = b) ->
    matmul_shaper al' bl' = Ok outs -> prod (skipn 2 al) = prod (skipn 2 bl) -> length dest = n_elems outs ->
    exists dest' k, matmul_fwd zero add sub mul fresh false STRASSEN_THRESHOLD al' bl' (0, 0) (1, 0) (2, 0) [dest; a'; b']
        = Ok (dest' :: a' :: b' :: repeat [] k) /\
      length dest' = n_elems outs /\
      forall x y rest, in_bounds outs (x :: y :: rest) -> nth_error dest' (offset outs (x :: y :: rest)) =
        Some (sumn zero add (fun z =>
          mul (elem zero al a (if tA then y :: z :: rest else z :: y :: rest))
              (elem zero bl b (if tB then z :: x :: rest else x :: z :: rest))) (nth (if tA then 1 else 0) al 1)).
Proof. exact C21_matmul_transposed_lemma. Qed.
Print Assumptions C21_matmul_transposed.

(** Finding: when one rank is at most two the extra dimensions of the other argument are not
    compared, so a batch against a single matrix is accepted and reads and writes past the
    buffers: with shapes [2;2;3] and [2;2] the result has 4 elements and the forward pass
    runs 3 matrices. *)
Theorem C21_matmul_batch_overrun_refuted :
  ~ (forall (al bl outs : shape) (dest a b : list Z),
      is_fully_defined al = true -> is_fully_defined bl = true -> matmul_shaper al bl = Ok outs ->
      length a = n_elems al -> length b = n_elems bl -> length dest = n_elems outs ->
      matmul_fwd 0%Z Z.add Z.sub Z.mul (fun _ _ => 0%Z) false STRASSEN_THRESHOLD al bl (0, 0) (1, 0) (2, 0) [dest; a; b] <> UB).
Proof. exact C21_matmul_batch_overrun_refuted_lemma. Qed.
Print Assumptions C21_matmul_batch_overrun_refuted.

(** Finding: the other way around the batch of the second argument is silently dropped: the
    product of a matrix with a batch of three depends on the first of the three only. *)
Theorem C21_matmul_batch_dropped_refuted :
  matmul_shaper [2; 2] [2; 2; 3] = Ok [2; 2] /\
  forall b0 b1 b2 b3 (rest : list Z), length rest = 8 ->
    matmul_fwd 0%Z Z.add Z.sub Z.mul (fun _ _ => 0%Z) false STRASSEN_THRESHOLD [2; 2] [2; 2; 3] (0, 0) (1, 0) (2, 0)
      [[0; 0; 0; 0]; [1; 2; 3; 4]; b0 :: b1 :: b2 :: b3 :: rest]%Z =
    Ok [[1 * b0 + 2 * b2; 1 * b1 + 2 * b3; 3 * b0 + 4 * b2; 3 * b1 + 4 * b3]; [1; 2; 3; 4]; b0 :: b1 :: b2 :: b3 :: rest]%Z.
Proof. exact C21_matmul_batch_dropped_refuted_lemma. Qed.
Print Assumptions C21_matmul_batch_dropped_refuted.

Example C21_matmul_nonvacuous :
  matmul_shaper [3; 2; 2] [2; 3; 2; 1] = Ok [2; 2; 2] /\
  is_fully_defined [3; 2; 2] = true /\ is_fully_defined [2; 3; 2; 1] = true /\ prod (skipn 2 [3; 2; 2]) = prod (skipn 2 [2; 3; 2; 1]) /\
  matmul_fwd 0%Z Z.add Z.sub Z.mul (fun _ _ => 0%Z) false STRASSEN_THRESHOLD [3; 2; 2] [2; 3; 2; 1] (0, 0) (1, 0) (2, 0)
    [[9; 9; 9; 9; 9; 9; 9; 9]; [1; 2; 3; 4; 5; 6; 7; 8; 9; 10; 11; 12]; [1; 0; 0; 1; 1; 1; 2; 0; 0; 2; 2; 2]]%Z
  = Ok [[4; 5; 10; 11; 32; 34; 44; 46]; [1; 2; 3; 4; 5; 6; 7; 8; 9; 10; 11; 12]; [1; 0; 0; 1; 1; 1; 2; 0; 0; 2; 2; 2]]%Z.
Proof. exact C21_matmul_nonvacuous_lemma. Qed.

(** Padding: the common size is no smaller than any dimension asked for, it is a number not
    above the threshold times a power of two, and nothing is padded at or below the
    threshold. *)
Theorem C22_padding :
  forall thr n, 0 < thr ->
    n <= min_pad thr n /\ (exists k e, k <= thr /\ min_pad thr n = k * 2 ^ e) /\ (n <= thr -> min_pad thr n = n).
Proof. exact C22_padding_lemma. Qed.
Print Assumptions C22_padding.

(** Strassen's algorithm on three buffers, at any recursion depth: over every ring, for every
    threshold and every padded size the first buffer receives the product of the two others
    (whose contents it may overwrite), no access leaves a buffer, and all scratch buffers are
    freed. *)
Theorem C22_strassen_product :
  forall (T : Type) (zero one : T) (add mul sub : T -> T -> T) (opp : T -> T),
    ring_theory zero one add mul sub opp eq ->
    forall fresh thr n (c a b : list T), 0 < thr -> (exists k e, k <= thr /\ n = k * 2 ^ e) ->
    length c = n * n -> length a = n * n -> length b = n * n ->
    exists c' a' b' k, strassen zero add sub mul fresh thr n (0, 0) (1, 0) (2, 0) n [c; a; b] = Ok (c' :: a' :: b' :: repeat [] k) /\
      length c' = n * n /\ length a' = n * n /\ length b' = n * n /\
      forall x y, x < n -> y < n ->
        nth_error c' (x + n * y) = Some (sumn zero add (fun z => mul (nth (z + n * y) a zero) (nth (x + n * z) b zero)) n).
Proof. exact C22_strassen_product_lemma. Qed.
Print Assumptions C22_strassen_product.

(** The whole forward pass built with Strassen enabled: over every ring and for every
    threshold (the code's is 256) it produces the same result as the plain triple loop, for
    every size on either side of the threshold, rectangular shapes and batches included. The
    ring laws are needed: with floating point elements the two differ by rounding. *)
Theorem C22_strassen_matmul :
  forall (T : Type) (zero one : T) (add mul sub : T -> T -> T) (opp : T -> T),
    ring_theory zero one add mul sub opp eq ->
    forall fresh thr (al bl outs : shape) (dest a b : list T), 0 < thr ->
    is_fully_defined al = true -> is_fully_defined bl = true ->
    matmul_shaper al bl = Ok outs -> prod (skipn 2 al) = prod (skipn 2 bl) ->
    length a = n_elems al -> length b = n_elems bl -> length dest = n_elems outs ->
    exists dest' k j,
      matmul_fwd zero add sub mul fresh true thr al bl (0, 0) (1, 0) (2, 0) [dest; a; b] = Ok (dest' :: a :: b :: repeat [] k) /\
      matmul_fwd zero add sub mul fresh false thr al bl (0, 0) (1, 0) (2, 0) [dest; a; b] = Ok (dest' :: a :: b :: repeat [] j) /\
      forall x y rest, in_bounds outs (x :: y :: rest) -> nth_error dest' (offset outs (x :: y :: rest)) =
        Some (sumn zero add (fun z => mul (elem zero al a (z :: y :: rest)) (elem zero bl b (x :: z :: rest))) (nth 0 al 1)).
Proof. exact C22_strassen_matmul_lemma. Qed.
Print Assumptions C22_strassen_matmul.

Example C22_strassen_nonvacuous :
  min_pad 256 513 = 516 /\ min_pad 2 3 = 4 /\
  matmul_fwd 0%Z Z.add Z.sub Z.mul (fun _ _ => 7%Z) true 1 [3; 2] [2; 3] (0, 0) (1, 0) (2, 0)
    [[9; 9; 9; 9]; [1; 2; 3; 4; 5; 6]; [1; 0; 0; 1; 1; 1]]%Z
  = Ok ([[4; 5; 10; 11]; [1; 2; 3; 4; 5; 6]; [1; 0; 0; 1; 1; 1]]%Z ++ repeat [] 27) /\
  ring_theory 0%Z 1%Z Z.add Z.mul Z.sub Z.opp eq.
Proof. exact C22_strassen_nonvacuous_lemma. Qed.
