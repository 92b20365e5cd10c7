(** Generated by tools/genprops.py from CseLaws.v: property statements only. *)
From Coq Require Import String Ascii DecimalString DecimalZ ZArith Lia.
From Verif Require Import Common ShapeModel TransformModel MatmulModel ElemSpec ElemModel ElemProofs GradModel CseModel CseSpec CseProofs CseGraphProofs CseFullProofs CseValueProofs.
Local Open Scope string_scope.
Local Open Scope list_scope.
From Verif Require Import CseLaws.

(** After any history of new leaves, operations and deletions, an operation on living nodes
    returns a living node and changes neither nodes nor values of nodes that are there. The
    node's value is the operation's result for the values of its arguments; for sums and
    products possibly the result for the arguments in the other order; for a negation or
    transposition of a node it may be a value that the operation turns into the argument. *)
Theorem C32_reuse :
  forall (T : Type) (N : num T) (fresh : nat -> T) (strassen_on : bool) (of_nat : nat -> T) (show : T -> string)
    (cmp_of : string -> T -> T -> bool) (pick : list nat -> option nat) (hs : list hop) (g : graph)
    (op : cop) (args : list nat) (g' : graph) (n : nat),
    exact_printing show -> picks pick ->
    Forall (proper cmp_of) hs -> run N show pick [] hs = Ok g ->
    well_named cmp_of op -> length args = arity op -> (forall a, In a args -> alive_at g a = true) ->
    (forall cap, op = KClipNorm cap -> ~ norm_node g (hd 0 args)) ->
    make N show pick g op args = (g', n) ->
    alive_at g' n = true /\
    (forall m, m < length g -> nth_error g' m = nth_error g m) /\
    forall env : nat -> tens T,
      let value := gvalue N fresh strassen_on of_nat env in
      let expected := meaning N fresh strassen_on of_nat op in
      (forall m, m < length g -> value g' m = value g m) /\
      forall ts, Forall2 (fun a t => value g a = Ok t) args ts ->
        value g' n = expected ts \/
        (commutative_op op /\ value g' n = expected (rev ts)) \/
        ((op = KUn UNeg \/ exists ax, op = KTr ax) /\
         exists t tc, ts = [t] /\ value g' n = Ok tc /\ expected [tc] = Ok t).
Proof. exact C32_reuse_lemma. Qed.
Print Assumptions C32_reuse.

(** Operations other than sums, products, negation and transposition: exactly the result. *)
Theorem C32_reuse_exact :
  forall (T : Type) (N : num T) (fresh : nat -> T) (strassen_on : bool) (of_nat : nat -> T) (show : T -> string)
    (cmp_of : string -> T -> T -> bool) (pick : list nat -> option nat) (hs : list hop) (g : graph)
    (op : cop) (args : list nat) (g' : graph) (n : nat) (env : nat -> tens T) (ts : list (tens T)),
    exact_printing show -> picks pick ->
    Forall (proper cmp_of) hs -> run N show pick [] hs = Ok g ->
    well_named cmp_of op -> length args = arity op -> (forall a, In a args -> alive_at g a = true) ->
    (forall cap, op = KClipNorm cap -> ~ norm_node g (hd 0 args)) ->
    ~ commutative_op op -> op <> KUn UNeg -> (forall ax, op <> KTr ax) ->
    make N show pick g op args = (g', n) ->
    Forall2 (fun a t => gvalue N fresh strassen_on of_nat env g a = Ok t) args ts ->
    gvalue N fresh strassen_on of_nat env g' n = meaning N fresh strassen_on of_nat op ts.
Proof. exact C32_reuse_exact_lemma. Qed.
Print Assumptions C32_reuse_exact.

(** a + b and a * b, elementwise: the same elements in the same layout, even if the node was
    made for b + a or b * a. *)
Theorem C32_sum_product :
  forall (T : Type) (N : num T) (fresh : nat -> T) (strassen_on : bool) (of_nat : nat -> T) (show : T -> string)
    (cmp_of : string -> T -> T -> bool) (pick : list nat -> option nat) (hs : list hop) (g : graph)
    (o : bop) (a b : nat) (g' : graph) (n : nat) (env : nat -> tens T) (ta tb : tens T),
    exact_printing show -> picks pick ->
    Forall (proper cmp_of) hs -> run N show pick [] hs = Ok g ->
    o = BAdd \/ o = BMul -> (forall x y, bop_lambda N o x y = bop_lambda N o y x) ->
    alive_at g a = true -> alive_at g b = true -> (forall k, full (env k)) ->
    gvalue N fresh strassen_on of_nat env g a = Ok ta -> gvalue N fresh strassen_on of_nat env g b = Ok tb ->
    make N show pick g (KBin o) [a; b] = (g', n) ->
    same_result (gvalue N fresh strassen_on of_nat env g' n) (meaning N fresh strassen_on of_nat (KBin o) [ta; tb]).
Proof. exact C32_sum_product_lemma. Qed.
Print Assumptions C32_sum_product.

(** -(-x) is x: the same elements in the same layout as negating twice. *)
Theorem C32_double_negation :
  forall (T : Type) (N : num T) (fresh : nat -> T) (strassen_on : bool) (of_nat : nat -> T) (show : T -> string)
    (cmp_of : string -> T -> T -> bool) (pick : list nat -> option nat) (hs : list hop) (g : graph)
    (a : nat) (g' : graph) (n : nat) (env : nat -> tens T) (ta : tens T),
    exact_printing show -> picks pick ->
    Forall (proper cmp_of) hs -> run N show pick [] hs = Ok g ->
    (forall x, n_neg N (n_neg N x) = x) -> alive_at g a = true -> (forall k, full (env k)) ->
    gvalue N fresh strassen_on of_nat env g a = Ok ta ->
    make N show pick g (KUn UNeg) [a] = (g', n) ->
    same_result (gvalue N fresh strassen_on of_nat env g' n) (meaning N fresh strassen_on of_nat (KUn UNeg) [ta]).
Proof. exact C32_double_negation_lemma. Qed.
Print Assumptions C32_double_negation.

(** Transposing a transposed node by the same axes returns the original node, which is the
    transposed transposed tensor if the axes are below the original's rank. *)
Theorem C32_double_transpose :
  forall (T : Type) (N : num T) (fresh : nat -> T) (strassen_on : bool) (of_nat : nat -> T) (show : T -> string)
    (cmp_of : string -> T -> T -> bool) (pick : list nat -> option nat) (hs : list hop) (g : graph)
    (i j : nat) (a : nat) (g' : graph) (n : nat) (env : nat -> tens T) (ta tn : tens T),
    exact_printing show -> picks pick ->
    Forall (proper cmp_of) hs -> run N show pick [] hs = Ok g ->
    alive_at g a = true -> (forall k, full (env k)) ->
    gvalue N fresh strassen_on of_nat env g a = Ok ta ->
    make N show pick g (KTr (i, j)) [a] = (g', n) ->
    gvalue N fresh strassen_on of_nat env g' n = Ok tn -> i < length (fst tn) -> j < length (fst tn) ->
    meaning N fresh strassen_on of_nat (KTr (i, j)) [ta] = Ok tn.
Proof. exact C32_double_transpose_lemma. Qed.
Print Assumptions C32_double_transpose.

(** matmul with flags: the product of the arguments, each transposed (or turned back) if its
    flag is set. *)
Theorem C32_matmul_flags :
  forall (T : Type) (N : num T) (fresh : nat -> T) (strassen_on : bool) (of_nat : nat -> T) (show : T -> string)
    (cmp_of : string -> T -> T -> bool) (pick : list nat -> option nat) (hs : list hop) (g : graph)
    (tA tB : bool) (a b : nat) (g' : graph) (n : nat) (env : nat -> tens T) (ta tb : tens T),
    let value := gvalue N fresh strassen_on of_nat env in
    let transposed := fun t => meaning N fresh strassen_on of_nat (KTr (0, 1)) [t] in
    exact_printing show -> picks pick ->
    Forall (proper cmp_of) hs -> run N show pick [] hs = Ok g ->
    alive_at g a = true -> alive_at g b = true ->
    value g a = Ok ta -> value g b = Ok tb ->
    (tA = true -> exists x, transposed ta = Ok x) -> (tB = true -> exists x, transposed tb = Ok x) ->
    make_mat N show pick g tA tB a b = (g', n) ->
    alive_at g' n = true /\ (forall m, m < length g -> value g' m = value g m) /\
    exists xa xb,
      (if tA then transposed ta = Ok xa \/ transposed xa = Ok ta else xa = ta) /\
      (if tB then transposed tb = Ok xb \/ transposed xb = Ok tb else xb = tb) /\
      value g' n = meaning N fresh strassen_on of_nat (KMat false false) [xa; xb].
Proof. exact C32_matmul_flags_lemma. Qed.
Print Assumptions C32_matmul_flags.

(** Nothing is made twice: a second identical call leaves the graph as it is, whatever the
    labels are. *)
Theorem C32_second_call :
  forall (T : Type) (N : num T) (show : T -> string) (pick : list nat -> option nat) (g g' : graph) (op : cop) (args : list nat) (n : nat),
    picks pick -> op <> KConst -> length args = arity op -> (forall a, In a args -> a < length g) ->
    make N show pick g op args = (g', n) -> exists m, make N show pick g' op args = (g', m).
Proof. exact C32_second_call_lemma. Qed.
Print Assumptions C32_second_call.

(** as_constant is never shared: it looks for a label its nodes do not have. *)
Theorem C32_as_constant_never_reused :
  forall (T : Type) (N : num T) (show : T -> string) (cmp_of : string -> T -> T -> bool) (pick : list nat -> option nat) (hs : list hop) (g : graph) (a : nat),
    exact_printing show -> picks pick -> Forall (proper cmp_of) hs -> run N show pick [] hs = Ok g ->
    snd (make N show pick g KConst [a]) = length g.
Proof. exact C32_as_constant_never_reused_lemma. Qed.
Print Assumptions C32_as_constant_never_reused.

(** Scalars are printed with six digits: x + 1000001 is the node of x + 1000000. *)
Theorem C32_printing_refuted :
  exists g, run int_num show_g6 pick_first [] [HLeaf "x"; HMake (KUn (UAddR 1000000%Z)) [0]] = Ok g /\
  let '(g', n) := make int_num show_g6 pick_first g (KUn (UAddR 1000001%Z)) [0] in
  let env := fun _ => ([1], [5%Z]) in
  zvalue env g' n = Ok ([1], [1000005%Z]) /\ zmean (KUn (UAddR 1000001%Z)) [([1], [5%Z])] = Ok ([1], [1000006%Z]).
Proof. exact C32_printing_refuted_lemma. Qed.
Print Assumptions C32_printing_refuted.

(** conditional(5, x, <) and conditional(x, 5, <) have the same label: the second call returns
    the node of the first. *)
Theorem C32_conditional_side_refuted :
  exists g, run int_num show_Z pick_first [] [HLeaf "x"; HMake (KCondL "lt" Z.ltb 5%Z) [0]] = Ok g /\
  let '(g', n) := make int_num show_Z pick_first g (KCondR "lt" Z.ltb 5%Z) [0] in
  let env := fun _ => ([2], [3%Z; 7%Z]) in
  zvalue env g' n = Ok ([2], [0%Z; 1%Z]) /\ zmean (KCondR "lt" Z.ltb 5%Z) [([2], [3%Z; 7%Z])] = Ok ([2], [1%Z; 0%Z]).
Proof. exact C32_conditional_side_refuted_lemma. Qed.
Print Assumptions C32_conditional_side_refuted.

(** The order of the arguments of add_axial matters, but it is ignored: with the arguments
    exchanged it accesses a missing dimension, unless the other sum exists already. *)
Theorem C32_axial_order_refuted :
  exists g, run int_num show_Z pick_first [] [HLeaf "a"; HLeaf "b"; HMake (KAx BAdd false 1) [0; 1]] = Ok g /\
  let '(g', n) := make int_num show_Z pick_first g (KAx BAdd false 1) [1; 0] in
  let env := fun k => match k with 0 => ([3; 2], [1; 2; 3; 4; 5; 6]%Z) | _ => ([3], [10; 20; 30]%Z) end in
  zvalue env g' n = Ok ([3; 2], [11; 22; 33; 14; 25; 36]%Z) /\ zmean (KAx BAdd false 1) [env 1; env 0] = UB.
Proof. exact C32_axial_order_refuted_lemma. Qed.
Print Assumptions C32_axial_order_refuted.

(** The shape of a sum of shapes [2] and [2, 1] depends on which sum was made first. *)
Theorem C32_sum_shape_refuted :
  exists g, run int_num show_Z pick_first [] [HLeaf "a"; HLeaf "b"; HMake (KBin BAdd) [0; 1]] = Ok g /\
  let '(g', n) := make int_num show_Z pick_first g (KBin BAdd) [1; 0] in
  let env := fun k => match k with 0 => ([2], [1; 2]%Z) | _ => ([2; 1], [10; 20]%Z) end in
  zvalue env g' n = Ok ([2; 1], [11; 22]%Z) /\ zmean (KBin BAdd) [env 1; env 0] = Ok ([2], [11; 22]%Z).
Proof. exact C32_sum_shape_refuted_lemma. Qed.
Print Assumptions C32_sum_shape_refuted.

(** set_label: a node renamed to the label of another operation is returned for it. *)
Theorem C32_set_label_refuted :
  exists g, run int_num show_Z pick_first [] [HLeaf "x"; HMake (KUn UNeg) [0]; HLabel 1 "sin"] = Ok g /\
  make int_num show_Z pick_first g (KUn USin) [0] = (g, 1) /\
  let env := fun _ => ([1], [5%Z]) in
  zvalue env g 1 = Ok ([1], [(-5)%Z]) /\ zmean (KUn USin) [([1], [5%Z])] = Ok ([1], [5%Z]).
Proof. exact C32_set_label_refuted_lemma. Qed.
Print Assumptions C32_set_label_refuted.

(** clip_norm(l2norm(x), c) after clip_norm(x, c) returns clip_norm(x, c), because l2norm(x) is
    an argument of that node. *)
Theorem C32_clip_norm_refuted :
  exists g, run int_num show_Z pick_first [] [HLeaf "x"; HMake (KClipNorm 10%Z) [0]] = Ok g /\
  norm_node g 1 /\
  let '(g', n) := make int_num show_Z pick_first g (KClipNorm 10%Z) [1] in
  let env := fun _ => ([3], [3; 8; 4]%Z) in
  zvalue env g' n = Ok ([3], [10; 26; 13]%Z) /\ zvalue env g 1 = Ok ([1], [3%Z]) /\ zmean (KClipNorm 10%Z) [([1], [3%Z])] = Ok ([1], [10%Z]).
Proof. exact C32_clip_norm_refuted_lemma. Qed.
Print Assumptions C32_clip_norm_refuted.

(** A node of a comparison called "lt_5" is taken for the comparison "lt" with the scalar 5. *)
Theorem C32_name_refuted :
  exists g, run int_num show_Z pick_first [] [HLeaf "x"; HLeaf "y"; HMake (KCond "lt_5" Z.leb) [0; 1]] = Ok g /\
  make int_num show_Z pick_first g (KCondR "lt" Z.eqb 5%Z) [0] = (g, 2).
Proof. exact C32_name_refuted_lemma. Qed.
Print Assumptions C32_name_refuted.

(** A history with reuse, negation and a deletion meets the hypotheses: x + y is found for
    y + x, the deleted sine is made again, and negating the negated sum gives the sum. *)
Example C32_nonvacuous :
  exact_printing show_Z /\ picks pick_first /\
  let hs := [HLeaf "x"; HLeaf "y"; HMake (KBin BAdd) [0; 1]; HMake (KUn USin) [0]; HMake (KUn UNeg) [2]; HDel 3; HMake (KUn USin) [0];
             HMake (KCondR "eq" Z.eqb 5%Z) [0]; HMat false true 0 1] in
  Forall (proper cmps) hs /\
  exists g, run int_num show_Z pick_first [] hs = Ok g /\ length g = 9 /\
    make int_num show_Z pick_first g (KBin BAdd) [1; 0] = (g, 2) /\
    make int_num show_Z pick_first g (KUn USin) [0] = (g, 5) /\
    make int_num show_Z pick_first g (KUn UNeg) [4] = (g, 2) /\
    make int_num show_Z pick_first g (KCondL "eq" Z.eqb 5%Z) [0] = (g, 6) /\
    make_mat int_num show_Z pick_first g false true 0 1 = (g, 8) /\
    well_named cmps (KCondL "eq" Z.eqb 5%Z) /\
    let env := fun k => match k with 0 => ([2; 1], [1; 2]%Z) | _ => ([2; 1], [10; 20]%Z) end in
    (forall k, full (env k)) /\
    zvalue env g 2 = Ok ([2; 1], [11; 22]%Z) /\ zvalue env g 4 = Ok ([2; 1], [-11; -22]%Z) /\ zvalue env g 8 = Ok ([1; 1], [50%Z]) /\
    ~ norm_node g 2.
Proof. exact C32_nonvacuous_lemma. Qed.
