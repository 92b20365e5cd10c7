(** Generated by tools/genprops.py from ShapeLaws.v: property statements only. *)
From Coq Require Import NArith.
From Verif Require Import Common ShapeModel ShapeSpec ShapeProofs.
From Verif Require Import ShapeLaws.

(** flat_idx and coordinate_from_idx are mutually inverse bijections between the
    indices below n_elems and the in-bounds coordinates. *)
Theorem C01_flat_idx_coordinate_inverse :
  forall s : shape, is_fully_defined s = true ->
    (forall i, i < n_elems s ->
       exists c, coordinate_from_idx s i = Ok c /\ in_bounds s c /\ flat_idx s c = Ok i) /\
    (forall c, in_bounds s c ->
       exists i, flat_idx s c = Ok i /\ i < n_elems s /\ coordinate_from_idx s i = Ok c).
Proof. exact C01_flat_idx_coordinate_inverse_lemma. Qed.
Print Assumptions C01_flat_idx_coordinate_inverse.

(** The storage position is the mixed-radix number with dimension 0 fastest. *)
Theorem C01_flat_idx_value :
  forall (s : shape) (c : list nat), is_fully_defined s = true -> in_bounds s c ->
    flat_idx s c = Ok (offset s c).
Proof. exact C01_flat_idx_value_lemma. Qed.
Print Assumptions C01_flat_idx_value.

(** A shape with an unknown (zero) dimension makes coordinate_from_idx divide by zero. *)
Theorem C01_coordinate_unknown_dimension_refuted :
  exists (s : shape) (i : nat), is_part_defined s = true /\ coordinate_from_idx s i = UB.
Proof. exact C01_coordinate_unknown_dimension_refuted_lemma. Qed.
Print Assumptions C01_coordinate_unknown_dimension_refuted.

Example C01_nonvacuous :
  is_fully_defined [2; 3; 4] = true /\ flat_idx [2; 3; 4] [1; 2; 3] = Ok 23 /\
  coordinate_from_idx [2; 3; 4] 23 = Ok [1; 2; 3].
Proof. exact C01_nonvacuous_lemma. Qed.

(** The sequence of callback invocations of iterate: exactly n_elems calls, the i-th
    with index i and the coordinate of i; every in-bounds coordinate exactly once. *)
Theorem C02_iterate_visits_each_once :
  forall s : shape, is_fully_defined s = true ->
  exists log,
    iterate s (fun c i log => Ok (log ++ [(c, i)])) [] = Ok log /\
    length log = n_elems s /\
    (forall i, i < n_elems s ->
       exists c, nth_error log i = Some (c, i) /\ in_bounds s c /\ flat_idx s c = Ok i) /\
    (forall c, in_bounds s c -> exists! k, exists i, nth_error log k = Some (c, i)).
Proof. exact C02_iterate_visits_each_once_lemma. Qed.
Print Assumptions C02_iterate_visits_each_once.

(** For a callback with arbitrary effects, iterate is the in-order sequence of calls. *)
Theorem C02_iterate_order :
  forall (S : Type) (s : shape) (f : list nat -> nat -> S -> res S) (st : S),
    is_fully_defined s = true ->
    iterate s f st =
    fold_left (fun acc i => bind acc (fun x => f (coords s i) i x)) (seq 0 (n_elems s)) (Ok st).
Proof. exact C02_iterate_order_lemma. Qed.
Print Assumptions C02_iterate_order.

Example C02_nonvacuous :
  is_fully_defined [2; 2] = true /\
  iterate [2; 2] (fun c i log => Ok (log ++ [(c, i)])) [] =
    Ok [([0; 0], 0); ([1; 0], 1); ([0; 1], 2); ([1; 1], 3)].
Proof. exact C02_nonvacuous_lemma. Qed.

(** Compatibility always yields an answer (no out-of-range access), is symmetric and
    reflexive, and an undefined shape is compatible with everything. *)
Theorem C03_compatibility_reflexive_symmetric :
  (forall a b : shape, exists r, is_compatible_with a b = Ok r) /\
  (forall a b : shape, is_compatible_with a b = is_compatible_with b a) /\
  (forall a : shape, is_compatible_with a a = Ok true) /\
  (forall a : shape, is_compatible_with [] a = Ok true /\ is_compatible_with a [] = Ok true).
Proof. exact C03_compatibility_reflexive_symmetric_lemma. Qed.
Print Assumptions C03_compatibility_reflexive_symmetric.

(** For equal ranks, compatible means: in each dimension equal, or one is unknown. *)
Theorem C03_compatibility_same_rank :
  forall a b : shape, length a = length b ->
    (is_compatible_with a b = Ok true <-> Forall2 (fun x y => x = y \/ x = 0 \/ y = 0) a b).
Proof. exact C03_compatibility_same_rank_lemma. Qed.
Print Assumptions C03_compatibility_same_rank.

(** It is not an equivalence: compatibility is not transitive. *)
Theorem C03_compatibility_transitive_refuted :
  exists a b c : shape, is_compatible_with a b = Ok true /\ is_compatible_with b c = Ok true /\
    is_compatible_with a c = Ok false.
Proof. exact C03_compatibility_transitive_refuted_lemma. Qed.
Print Assumptions C03_compatibility_transitive_refuted.

(** Also among fully defined shapes it is not transitive: padding may be absorbed at
    either end. *)
Theorem C03_compatibility_defined_transitive_refuted :
  exists a b c : shape, is_fully_defined a = true /\ is_fully_defined b = true /\
    is_fully_defined c = true /\ is_compatible_with a b = Ok true /\
    is_compatible_with b c = Ok true /\ is_compatible_with a c = Ok false.
Proof. exact C03_compatibility_defined_transitive_refuted_lemma. Qed.
Print Assumptions C03_compatibility_defined_transitive_refuted.

Example C03_nonvacuous :
  is_compatible_with [1; 2; 0; 1] [2; 5] = Ok true /\ is_compatible_with [2; 3] [2; 5] = Ok false.
Proof. exact C03_nonvacuous_lemma. Qed.

(** Fully defined shapes are compatible exactly when equal (same rank) or equal up to
    leading/trailing ones (different rank); then they have equally many elements. *)
Theorem C04_compatible_defined_shapes :
  forall a b : shape, is_fully_defined a = true -> is_fully_defined b = true ->
    (is_compatible_with a b = Ok true <->
       (length a = length b /\ a = b) \/ (length a <> length b /\ unpad a = unpad b)) /\
    (is_compatible_with a b = Ok true -> n_elems a = n_elems b).
Proof. exact C04_compatible_defined_shapes_lemma. Qed.
Print Assumptions C04_compatible_defined_shapes.

Example C04_nonvacuous :
  is_fully_defined [1; 2; 3] = true /\ is_fully_defined [2; 3; 1; 1] = true /\
  is_compatible_with [1; 2; 3] [2; 3; 1; 1] = Ok true /\ unpad [1; 2; 3] = unpad [2; 3; 1; 1].
Proof. exact C04_nonvacuous_lemma. Qed.

(** merge_with throws exactly on a rank mismatch of two defined shapes; otherwise each
    dimension is the receiver's if known, else the argument's. *)
Theorem C05_merge_value :
  forall a b : shape,
    (merge_with a b = Throw <-> a <> [] /\ b <> [] /\ length a <> length b) /\
    merge_with [] b = Ok b /\ merge_with a [] = Ok a /\
    (length a = length b -> exists m, merge_with a b = Ok m /\ length m = length a /\
       forall k, k < length a ->
         nth k m 0 = (if nth k a 0 =? 0 then nth k b 0 else nth k a 0)) /\
    merge_with a b <> UB /\ merge_with a b <> Abort.
Proof. exact C05_merge_value_lemma. Qed.
Print Assumptions C05_merge_value.

(** Laws of merging equal-rank compatible shapes. *)
Theorem C05_merge_laws :
  forall a b : shape, length a = length b -> is_compatible_with a b = Ok true ->
    merge_with a b = merge_with b a /\ merge_with a a = Ok a /\
    (exists m, merge_with a b = Ok m /\
       is_compatible_with m a = Ok true /\ is_compatible_with m b = Ok true /\
       merge_with m a = Ok m /\ merge_with m b = Ok m /\
       (forall k, k < length a -> (nth k a 0 <> 0 -> nth k m 0 = nth k a 0) /\
                                  (nth k b 0 <> 0 -> nth k m 0 = nth k b 0))).
Proof. exact C05_merge_laws_lemma. Qed.
Print Assumptions C05_merge_laws.

(** Merging incompatible shapes of equal rank silently keeps the receiver, so it is not
    commutative without the compatibility hypothesis. *)
Theorem C05_merge_incompatible_refuted :
  exists a b : shape, length a = length b /\ merge_with a b <> merge_with b a.
Proof. exact C05_merge_incompatible_refuted_lemma. Qed.
Print Assumptions C05_merge_incompatible_refuted.

Example C05_nonvacuous :
  is_compatible_with [2; 0; 4] [0; 3; 4] = Ok true /\ merge_with [2; 0; 4] [0; 3; 4] = Ok [2; 3; 4].
Proof. exact C05_nonvacuous_lemma. Qed.

(** trim drops exactly the ones at both ends and keeps the element count (unless the
    shape is all ones, which trims to the undefined shape of 0 elements). *)
Theorem C06_trim :
  forall s : shape, trim s = Ok (unpad s) /\
    (is_fully_defined s = true -> unpad s <> [] -> n_elems (unpad s) = n_elems s) /\
    (exists p q, s = repeat 1 p ++ unpad s ++ repeat 1 q) /\
    (unpad s <> [] -> hd 0 (unpad s) <> 1 /\ last (unpad s) 0 <> 1).
Proof. exact C06_trim_lemma. Qed.
Print Assumptions C06_trim.

(** The rank adjusting functions: exact rank, kept dimensions, padding with ones. *)
Theorem C06_with_rank :
  forall (s : shape) (r : nat),
    rank (with_rank s r) = r /\
    (forall k, k < r -> nth k (with_rank s r) 0 = (if k <? rank s then nth k s 0 else 1)) /\
    rank (with_rank_at_least s r) = Nat.max r (rank s) /\
    with_rank_at_least s r = s ++ repeat 1 (r - rank s) /\
    rank (with_rank_at_most s r) = Nat.min r (rank s) /\
    (forall k, k < Nat.min r (rank s) -> nth k (with_rank_at_most s r) 0 = nth k s 0) /\
    (s <> [] -> n_elems (with_rank_at_least s r) = n_elems s) /\
    (s <> [] -> rank s <= r -> n_elems (with_rank s r) = n_elems s).
Proof. exact C06_with_rank_lemma. Qed.
Print Assumptions C06_with_rank.

(** concatenate appends: ranks add, element counts multiply; the undefined shape is neutral. *)
Theorem C06_concatenate :
  forall a b c : shape,
    rank (concatenate a b) = rank a + rank b /\
    concatenate [] b = b /\ concatenate a [] = a /\
    concatenate (concatenate a b) c = concatenate a (concatenate b c) /\
    (a <> [] -> b <> [] -> n_elems (concatenate a b) = n_elems a * n_elems b).
Proof. exact C06_concatenate_lemma. Qed.
Print Assumptions C06_concatenate.

(** with_rank below the rank drops trailing dimensions, and so loses elements. *)
Theorem C06_with_rank_truncates_refuted :
  exists (s : shape) (r : nat), is_fully_defined s = true /\ r < rank s /\
    n_elems (with_rank s r) <> n_elems s.
Proof. exact C06_with_rank_truncates_refuted_lemma. Qed.
Print Assumptions C06_with_rank_truncates_refuted.

Example C06_nonvacuous :
  trim [1; 2; 1; 3; 1] = Ok [2; 1; 3] /\ trim [1; 1] = Ok [] /\
  with_rank [2; 3] 3 = [2; 3; 1] /\ with_rank_at_most [2; 3; 4] 2 = [2; 3] /\ unpad [1; 2; 1] <> [].
Proof. exact C06_nonvacuous_lemma. Qed.

(** With size_t arithmetic the element count is the product modulo 2^64; it is the
    exact product (and agrees with the unbounded model) when that is below 2^64. *)
Theorem C07_element_count_exact_below_2_64 :
  (forall s : list N, s <> [] -> n_elems64 s = (prodN s mod 2 ^ 64)%N) /\
  (forall s : list N, s <> [] -> (prodN s < 2 ^ 64)%N -> n_elems64 s = prodN s) /\
  (forall s : shape, s <> [] -> (N.of_nat (n_elems s) < 2 ^ 64)%N ->
      n_elems64 (map N.of_nat s) = N.of_nat (n_elems s)) /\
  (forall s : list N, s <> [] -> (prodN (filter (fun d => negb (d =? 0)%N) s) < 2 ^ 64)%N ->
      n_known64 s = prodN (filter (fun d => negb (d =? 0)%N) s)).
Proof. exact C07_element_count_exact_below_2_64_lemma. Qed.
Print Assumptions C07_element_count_exact_below_2_64.

(** A fully defined shape whose 64-bit element count is 0 although it describes 2^64
    elements: a tensor of that shape gets a zero-byte buffer from the allocator. *)
Theorem C07_element_count_overflow_refuted :
  exists s : list N, Forall (fun d => (0 < d < 2 ^ 64)%N) s /\ s <> [] /\
    (prodN s = 2 ^ 64)%N /\ n_elems64 s = 0%N /\ alloc_bytes64 (n_elems64 s) 8 = Some 0%N.
Proof. exact C07_element_count_overflow_refuted_lemma. Qed.
Print Assumptions C07_element_count_overflow_refuted.

(** The allocator's own overflow check is right: if it asks for memory at all, the byte
    count is the exact product. *)
Theorem C07_allocate_bytes_exact :
  forall n es b : N, (0 < es)%N -> (n < 2 ^ 64)%N ->
    alloc_bytes64 n es = Some b -> b = (n * es)%N /\ (b < 2 ^ 64)%N.
Proof. exact C07_allocate_bytes_exact_lemma. Qed.
Print Assumptions C07_allocate_bytes_exact.

Example C07_nonvacuous :
  n_elems64 [1000; 1000; 1000]%N = 1000000000%N /\ alloc_bytes64 10 8 = Some 80%N /\
  alloc_bytes64 (2 ^ 62) 8 = None.
Proof. exact C07_nonvacuous_lemma. Qed.
