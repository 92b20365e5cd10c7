(** Generated by tools/genprops.py from MeanLaws.v: property statements only. *)
From Coq Require Import String ZArith Reals Lia Lra.
From Verif Require Import Common ShapeModel ShapeSpec ShapeProofs TransformModel TransformSpec TransformProofs TransformLaws MatmulModel ElemSpec ElemModel ElemProofs GradModel RealNum CseModel CseSpec CseProofs CseGraphProofs CseFullProofs CseValueProofs CseLaws.
From Verif Require Import MeanLaws.

(** Without an axis: the node that reduce_mean returns after any history has the shape [1] and
    the sum of all elements divided by their number; nothing else changes. *)
Theorem C53_mean :
  forall (T : Type) (N : num T) (fresh : nat -> T) (strassen_on : bool) (of_nat : nat -> T) (show : T -> string)
    (cmp_of : string -> T -> T -> bool) (pick : list nat -> option nat) (hs : list hop) (g : graph)
    (a : nat) (g' : graph) (n : nat) (env : nat -> tens T) (s : shape) (d : list T),
    exact_printing show -> picks pick ->
    Forall (proper cmp_of) hs -> run N show pick [] hs = Ok g ->
    alive_at g a = true -> (forall k, full (env k)) ->
    gvalue N fresh strassen_on of_nat env g a = Ok (s, d) ->
    make_mean N show pick g None a = (g', n) ->
    alive_at g' n = true /\
    (forall m, m < length g -> nth_error g' m = nth_error g m /\ gvalue N fresh strassen_on of_nat env g' m = gvalue N fresh strassen_on of_nat env g m) /\
    length d = n_elems s /\ 0 < length d /\
    gvalue N fresh strassen_on of_nat env g' n = Ok ([1], [n_div N (fold1 (n_add N) (n_zero N) d) (of_nat (length d))]).
Proof. exact C53_mean_lemma. Qed.
Print Assumptions C53_mean.

(** With an axis below the rank: every element of the result is the sum of the elements along
    the axis divided by the axis' size; the shape is that of reduce_sum, or [1] if that has a
    single element. *)
Theorem C53_mean_axis :
  forall (T : Type) (N : num T) (fresh : nat -> T) (strassen_on : bool) (of_nat : nat -> T) (show : T -> string)
    (cmp_of : string -> T -> T -> bool) (pick : list nat -> option nat) (hs : list hop) (g : graph)
    (a : nat) (i : nat) (g' : graph) (n : nat) (env : nat -> tens T) (s : shape) (d : list T),
    exact_printing show -> picks pick ->
    Forall (proper cmp_of) hs -> run N show pick [] hs = Ok g ->
    alive_at g a = true -> (forall k, full (env k)) ->
    gvalue N fresh strassen_on of_nat env g a = Ok (s, d) -> i < length s ->
    make_mean N show pick g (Some i) a = (g', n) ->
    alive_at g' n = true /\
    (forall m, m < length g -> nth_error g' m = nth_error g m /\ gvalue N fresh strassen_on of_nat env g' m = gvalue N fresh strassen_on of_nat env g m) /\
    exists o e, compress_shape i s = Ok o /\
      gvalue N fresh strassen_on of_nat env g' n = Ok (if n_elems o =? 1 then [1] else o, e) /\ length e = n_elems o /\
      forall c, in_bounds (set_nth i 1 s) c ->
        nth_error e (offset (set_nth i 1 s) c) =
          Some (n_div N (fold1 (n_add N) (n_zero N) (along (n_zero N) s d i c)) (of_nat (length (along (n_zero N) s d i c)))).
Proof. exact C53_mean_axis_lemma. Qed.
Print Assumptions C53_mean_axis.

(** Over the real numbers the first is the arithmetic mean. *)
Theorem C53_arithmetic_mean :
  forall (d : list R), d <> nil ->
    n_div Rnum (fold1 (n_add Rnum) (n_zero Rnum) d) (INR (length d)) = (fold_right Rplus 0 d / INR (length d))%R.
Proof. exact C53_arithmetic_mean_lemma. Qed.
Print Assumptions C53_arithmetic_mean.

(** An axis beyond the rank, for which reduce_sum returns its argument unchanged: reduce_mean
    reads a dimension that is not there. *)
Theorem C53_axis_refuted :
  forall (T : Type) (N : num T) (fresh : nat -> T) (strassen_on : bool) (of_nat : nat -> T) (i : nat) (s : shape) (d : list T),
    full (s, d) -> length s <= i ->
    meaning N fresh strassen_on of_nat (KSum (Some i)) [(s, d)] = Ok (s, d) /\
    meaning N fresh strassen_on of_nat (KSize (Some i)) [(s, d)] = UB.
Proof. exact C53_axis_refuted_lemma. Qed.
Print Assumptions C53_axis_refuted.

(** The node that turns shapes into numbers (shape_dep), for any function of a shape and any
    result shape [ncol] or [ncol, nrow]: row i holds the numbers of argument i's shape,
    filled up with ones; it fails if a row's numbers do not fit into the rest of the tensor. *)
Theorem C53_extract :
  forall (T : Type) (N : num T) (of_nat : nat -> T) (shaper : shape -> res (list nat)) (outs : shape) (ncol nrow : nat) (ins : list shape) (srcs : list (list T)) (dest : list T) (rows : list (list nat)),
    outs = [ncol; nrow] \/ (outs = [ncol] /\ nrow = 1) -> length dest = ncol * nrow ->
    length rows = nrow -> Forall2 (fun s r => shaper s = Ok r) (firstn nrow ins) rows -> Forall (fun r => length r <= ncol) rows ->
    extract N of_nat shaper outs ins srcs dest =
      Ok (concat (map (fun r => map of_nat r ++ repeat (n_one N) (ncol - length r)) rows)).
Proof. exact C53_extract_lemma. Qed.
Print Assumptions C53_extract.

(** Numbers that do not fit: those of the last row are written behind the tensor, those of
    another row into the next row. *)
Theorem C53_extract_overflow_refuted :
  extract int_num Z.of_nat (fun s => Ok s) [2] [[3; 4; 5]] [] [0%Z; 0%Z] = UB /\
  extract int_num Z.of_nat (fun s => Ok s) [2; 2] [[3; 4; 5]; [6]] [] [0; 0; 0; 0]%Z = Ok [3; 4; 6; 1]%Z /\
  extract int_num Z.of_nat (fun s => Ok s) [2; 2] [[3; 4; 5; 7]; [6]] [] [0; 0; 0; 0]%Z = Ok [3; 4; 6; 7]%Z.
Proof. exact C53_extract_overflow_refuted_lemma. Qed.
Print Assumptions C53_extract_overflow_refuted.

(** A history with both kinds of mean of one node and reuse of the parts. *)
Example C53_nonvacuous :
  let hs := [HLeaf "x"%string; HMake (KSum (Some 1)) [0]; HMean (Some 1) 0; HMean None 0; HMake (KUn UNeg) [0]] in
  Forall (proper cmps) hs /\
  exists g, run int_num show_Z pick_first [] hs = Ok g /\ length g = 8 /\
  make_mean int_num show_Z pick_first g (Some 1) 0 = (g, 3) /\ make_mean int_num show_Z pick_first g None 0 = (g, 6) /\
  fst (make_mean int_num show_Z pick_first g (Some 0) 7) <> g /\ alive_at g 7 = true /\
  let env := fun _ : nat => ([2; 3], [2; 4; 6; 8; 10; 12]%Z) in
    (forall k, full (env k)) /\ zvalue env g 7 = Ok ([2; 3], [-2; -4; -6; -8; -10; -12]%Z) /\
  zvalue env g 3 = Ok ([2], [6; 8]%Z) /\ zvalue env g 6 = Ok ([1], [7%Z]).
Proof. exact C53_nonvacuous_lemma. Qed.
