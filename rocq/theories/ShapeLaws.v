(** Property lemmas about shapes (C01 - C07). *)
From Coq Require Import NArith.
From Verif Require Import Common ShapeModel ShapeSpec ShapeProofs.

(** flat_idx and coordinate_from_idx are mutually inverse bijections between the
    indices below n_elems and the in-bounds coordinates. *)
Lemma C01_flat_idx_coordinate_inverse_lemma :
  forall s : shape, is_fully_defined s = true ->
    (forall i, i < n_elems s ->
       exists c, coordinate_from_idx s i = Ok c /\ in_bounds s c /\ flat_idx s c = Ok i) /\
    (forall c, in_bounds s c ->
       exists i, flat_idx s c = Ok i /\ i < n_elems s /\ coordinate_from_idx s i = Ok c).
Proof.
  intros s H. apply is_fully_defined_iff in H. pose proof H as [H1 H2].
  rewrite n_elems_prod by auto. split.
  - intros i Hi. exists (coords s i). split; [now apply coordinate_from_idx_coords|].
    split; [now apply coords_in_bounds|].
    rewrite flat_idx_in_bounds by (auto; now apply coords_in_bounds).
    now rewrite offset_coords_lt.
  - intros c Hc. exists (offset s c). split; [now apply flat_idx_in_bounds|].
    split; [now apply offset_lt|]. rewrite coordinate_from_idx_coords by auto.
    now rewrite coords_offset.
Qed.

(** The storage position is the mixed-radix number with dimension 0 fastest. *)
Lemma C01_flat_idx_value_lemma :
  forall (s : shape) (c : list nat), is_fully_defined s = true -> in_bounds s c ->
    flat_idx s c = Ok (offset s c).
Proof. intros s c H Hc. apply is_fully_defined_iff in H. now apply flat_idx_in_bounds. Qed.

(** A shape with an unknown (zero) dimension makes coordinate_from_idx divide by zero. *)
Lemma C01_coordinate_unknown_dimension_refuted_lemma :
  exists (s : shape) (i : nat), is_part_defined s = true /\ coordinate_from_idx s i = UB.
Proof. exists [2; 0; 3], 1. split; reflexivity. Qed.

Lemma C01_nonvacuous_lemma :
  is_fully_defined [2; 3; 4] = true /\ flat_idx [2; 3; 4] [1; 2; 3] = Ok 23 /\
  coordinate_from_idx [2; 3; 4] 23 = Ok [1; 2; 3].
Proof. repeat split. Qed.

Definition record_call (c : list nat) (i : nat) (log : list (list nat * nat)) : res (list (list nat * nat)) :=
  Ok (log ++ [(c, i)]).

Lemma iterate_log s : defined s ->
  iterate s record_call [] = Ok (map (fun i => (coords s i, i)) (seq 0 (n_elems s))).
Proof.
  intros H. rewrite iterate_for by auto. rewrite n_elems_prod by apply H.
  destruct (for_inv (fun k log => log = map (fun i => (coords s i, i)) (seq 0 k))
     (fun i st => record_call (coords s i) i st) (prod s) []) as [log [E ->]]; auto.
  intros j log Hj ->. eexists; split; [reflexivity|].
  rewrite seq_S, map_app. reflexivity.
Qed.

(** The sequence of callback invocations of iterate: exactly n_elems calls, the i-th
    with index i and the coordinate of i; every in-bounds coordinate exactly once. *)
Lemma C02_iterate_visits_each_once_lemma :
  forall s : shape, is_fully_defined s = true ->
  exists log,
    iterate s (fun c i log => Ok (log ++ [(c, i)])) [] = Ok log /\
    length log = n_elems s /\
    (forall i, i < n_elems s ->
       exists c, nth_error log i = Some (c, i) /\ in_bounds s c /\ flat_idx s c = Ok i) /\
    (forall c, in_bounds s c -> exists! k, exists i, nth_error log k = Some (c, i)).
Proof.
  intros s H. apply is_fully_defined_iff in H. pose proof H as [H1 H2].
  eexists. split; [apply (iterate_log s H)|].
  rewrite map_length, seq_length. split; auto.
  assert (Hn : forall k, k < n_elems s ->
     nth_error (map (fun i => (coords s i, i)) (seq 0 (n_elems s))) k = Some (coords s k, k)).
  { intros k Hk. rewrite nth_error_map_iff, nth_error_seq by auto. reflexivity. }
  split.
  - intros i Hi. exists (coords s i). rewrite Hn by auto. split; auto.
    split; [now apply coords_in_bounds|].
    rewrite flat_idx_in_bounds by (auto; now apply coords_in_bounds).
    rewrite offset_coords_lt; auto. now rewrite <- n_elems_prod.
  - intros c Hc. exists (offset s c). split.
    + exists (offset s c). rewrite Hn.
      * now rewrite coords_offset.
      * rewrite n_elems_prod by auto. now apply offset_lt.
    + intros k [i Hk]. pose proof (nth_error_lt _ _ _ Hk) as Hlt.
      rewrite map_length, seq_length in Hlt. rewrite Hn in Hk by auto.
      injection Hk as Hk _. rewrite <- Hk. apply offset_coords_lt; auto.
      now rewrite <- n_elems_prod.
Qed.

(** For a callback with arbitrary effects, iterate is the in-order sequence of calls. *)
Lemma C02_iterate_order_lemma :
  forall (S : Type) (s : shape) (f : list nat -> nat -> S -> res S) (st : S),
    is_fully_defined s = true ->
    iterate s f st =
    fold_left (fun acc i => bind acc (fun x => f (coords s i) i x)) (seq 0 (n_elems s)) (Ok st).
Proof.
  intros S s f st H. apply is_fully_defined_iff in H. rewrite iterate_for by auto.
  rewrite <- n_elems_prod by apply H.
  assert (G : forall g n i (acc : res S),
    fold_left (fun acc i => bind acc (fun x => g i x)) (seq i n) acc =
    bind acc (fun x => forloop n i g x)).
  { intros g n; induction n as [|n IH]; intros i acc; simpl.
    - now destruct acc.
    - rewrite IH. destruct acc; reflexivity. }
  rewrite (G (fun i x => f (coords s i) i x)). reflexivity.
Qed.

Lemma C02_nonvacuous_lemma :
  is_fully_defined [2; 2] = true /\
  iterate [2; 2] (fun c i log => Ok (log ++ [(c, i)])) [] =
    Ok [([0; 0], 0); ([1; 0], 1); ([0; 1], 2); ([1; 1], 3)].
Proof. split; reflexivity. Qed.

(** Compatibility always yields an answer (no out-of-range access), is symmetric and
    reflexive, and an undefined shape is compatible with everything. *)
Lemma C03_compatibility_reflexive_symmetric_lemma :
  (forall a b : shape, exists r, is_compatible_with a b = Ok r) /\
  (forall a b : shape, is_compatible_with a b = is_compatible_with b a) /\
  (forall a : shape, is_compatible_with a a = Ok true) /\
  (forall a : shape, is_compatible_with [] a = Ok true /\ is_compatible_with a [] = Ok true).
Proof.
  split; [exact compat_total|]. split; [exact compat_sym|].
  split; [exact compat_refl|exact compat_undefined].
Qed.

(** For equal ranks, compatible means: in each dimension equal, or one is unknown. *)
Lemma C03_compatibility_same_rank_lemma :
  forall a b : shape, length a = length b ->
    (is_compatible_with a b = Ok true <-> Forall2 (fun x y => x = y \/ x = 0 \/ y = 0) a b).
Proof. exact compat_same_rank_iff. Qed.

(** It is not an equivalence: compatibility is not transitive. *)
Lemma C03_compatibility_transitive_refuted_lemma :
  exists a b c : shape, is_compatible_with a b = Ok true /\ is_compatible_with b c = Ok true /\
    is_compatible_with a c = Ok false.
Proof. exists [2], [0], [3]. repeat split. Qed.

(** Also among fully defined shapes it is not transitive: padding may be absorbed at
    either end. *)
Lemma C03_compatibility_defined_transitive_refuted_lemma :
  exists a b c : shape, is_fully_defined a = true /\ is_fully_defined b = true /\
    is_fully_defined c = true /\ is_compatible_with a b = Ok true /\
    is_compatible_with b c = Ok true /\ is_compatible_with a c = Ok false.
Proof. exists [1; 2], [2], [2; 1]. repeat split. Qed.

Lemma C03_nonvacuous_lemma :
  is_compatible_with [1; 2; 0; 1] [2; 5] = Ok true /\ is_compatible_with [2; 3] [2; 5] = Ok false.
Proof. split; reflexivity. Qed.

(** Fully defined shapes are compatible exactly when equal (same rank) or equal up to
    leading/trailing ones (different rank); then they have equally many elements. *)
Lemma C04_compatible_defined_shapes_lemma :
  forall a b : shape, is_fully_defined a = true -> is_fully_defined b = true ->
    (is_compatible_with a b = Ok true <->
       (length a = length b /\ a = b) \/ (length a <> length b /\ unpad a = unpad b)) /\
    (is_compatible_with a b = Ok true -> n_elems a = n_elems b).
Proof.
  intros a b Ha Hb. apply is_fully_defined_iff in Ha, Hb. split.
  - now apply compat_defined_iff.
  - now apply compat_n_elems.
Qed.

Lemma C04_nonvacuous_lemma :
  is_fully_defined [1; 2; 3] = true /\ is_fully_defined [2; 3; 1; 1] = true /\
  is_compatible_with [1; 2; 3] [2; 3; 1; 1] = Ok true /\ unpad [1; 2; 3] = unpad [2; 3; 1; 1].
Proof. repeat split. Qed.

(** merge_with throws exactly on a rank mismatch of two defined shapes; otherwise each
    dimension is the receiver's if known, else the argument's. *)
Lemma C05_merge_value_lemma :
  forall a b : shape,
    (merge_with a b = Throw <-> a <> [] /\ b <> [] /\ length a <> length b) /\
    merge_with [] b = Ok b /\ merge_with a [] = Ok a /\
    (length a = length b -> exists m, merge_with a b = Ok m /\ length m = length a /\
       forall k, k < length a ->
         nth k m 0 = (if nth k a 0 =? 0 then nth k b 0 else nth k a 0)) /\
    merge_with a b <> UB /\ merge_with a b <> Abort.
Proof.
  intros a b. split; [apply merge_with_throw|]. split; [reflexivity|].
  split; [destruct a; reflexivity|]. split.
  - intros Hl. exists (merge_dims a b).
    split; [|split; [now apply merge_dims_length|intros; now apply merge_dims_nth]].
    unfold merge_with. destruct a as [|x a], b as [|y b]; try discriminate; auto.
    rewrite Hl, Nat.eqb_refl; reflexivity.
  - unfold merge_with. destruct a, b; try (split; discriminate).
    destruct (_ =? _); split; discriminate.
Qed.

(** Laws of merging equal-rank compatible shapes. *)
Lemma C05_merge_laws_lemma :
  forall a b : shape, length a = length b -> is_compatible_with a b = Ok true ->
    merge_with a b = merge_with b a /\ merge_with a a = Ok a /\
    (exists m, merge_with a b = Ok m /\
       is_compatible_with m a = Ok true /\ is_compatible_with m b = Ok true /\
       merge_with m a = Ok m /\ merge_with m b = Ok m /\
       (forall k, k < length a -> (nth k a 0 <> 0 -> nth k m 0 = nth k a 0) /\
                                  (nth k b 0 <> 0 -> nth k m 0 = nth k b 0))).
Proof.
  intros a b Hl Hc. pose proof (proj1 (compat_same_rank_iff a b Hl) Hc) as F.
  assert (M : forall x y : shape, length x = length y -> merge_with x y = Ok (merge_dims x y)).
  { intros x y E. unfold merge_with. destruct x as [|x xs], y as [|y ys]; try discriminate; auto.
    rewrite E, Nat.eqb_refl; reflexivity. }
  rewrite (M a b), (M b a), (M a a) by auto.
  rewrite merge_dims_idem. split; [f_equal; now apply merge_dims_comm|]. split; auto.
  exists (merge_dims a b). split; auto.
  assert (La : length (merge_dims a b) = length a) by now apply merge_dims_length.
  split; [apply compat_same_rank_iff; auto; now apply merge_dims_agree_l|].
  split; [apply compat_same_rank_iff; [lia|]; now apply merge_dims_agree_r|].
  assert (K : forall k, k < length a -> (nth k a 0 <> 0 -> nth k (merge_dims a b) 0 = nth k a 0) /\
                                  (nth k b 0 <> 0 -> nth k (merge_dims a b) 0 = nth k b 0)).
  { intros k Hk. rewrite merge_dims_nth by auto.
    assert (D : dim_agree (nth k a 0) (nth k b 0)).
    { clear - F Hk. revert k Hk; induction F as [|x y a b D F IH]; intros [|k] Hk; simpl in *; try lia; auto.
      apply IH; lia. }
    unfold dim_agree in D. destruct (Nat.eqb_spec (nth k a 0) 0); split; intros; lia. }
  split; [|split; [|exact K]]; rewrite M by lia; f_equal; apply nth_ext with 0 0;
    rewrite merge_dims_length by lia; auto; intros k Hk;
    rewrite merge_dims_nth by lia; destruct (Nat.eqb_spec (nth k (merge_dims a b) 0) 0) as [Z|]; auto;
    destruct (K k) as [K1 K2]; try lia.
Qed.

(** Merging incompatible shapes of equal rank silently keeps the receiver, so it is not
    commutative without the compatibility hypothesis. *)
Lemma C05_merge_incompatible_refuted_lemma :
  exists a b : shape, length a = length b /\ merge_with a b <> merge_with b a.
Proof. exists [2], [3]. split; [reflexivity|discriminate]. Qed.

Lemma C05_nonvacuous_lemma :
  is_compatible_with [2; 0; 4] [0; 3; 4] = Ok true /\ merge_with [2; 0; 4] [0; 3; 4] = Ok [2; 3; 4].
Proof. split; reflexivity. Qed.

(** trim drops exactly the ones at both ends and keeps the element count (unless the
    shape is all ones, which trims to the undefined shape of 0 elements). *)
Lemma C06_trim_lemma :
  forall s : shape, trim s = Ok (unpad s) /\
    (is_fully_defined s = true -> unpad s <> [] -> n_elems (unpad s) = n_elems s) /\
    (exists p q, s = repeat 1 p ++ unpad s ++ repeat 1 q) /\
    (unpad s <> [] -> hd 0 (unpad s) <> 1 /\ last (unpad s) 0 <> 1).
Proof.
  intros s. split; [apply trim_unpad|]. split.
  - intros H Hu. apply is_fully_defined_iff in H. rewrite !n_elems_prod by (auto; apply H).
    apply prod_unpad.
  - assert (D : forall t, drop1 t <> [] -> hd 0 (drop1 t) <> 1).
    { induction t as [|[|[|x]] t IH]; simpl; auto. }
    split.
    + destruct (drop1_decomp s) as [p E1].
      destruct (drop1_decomp (rev (drop1 s))) as [q E2].
      exists p, q. rewrite E1 at 1. f_equal.
      rewrite <- (rev_involutive (drop1 s)). rewrite E2 at 1.
      rewrite rev_app_distr, rev_repeat. reflexivity.
    + intros Hu. unfold unpad in *.
      assert (Hr : drop1 (rev (drop1 s)) <> []).
      { intros E; apply Hu; now rewrite E. }
      split.
      * destruct (drop1_decomp (rev (drop1 s))) as [q E2].
        assert (E : drop1 s = rev (drop1 (rev (drop1 s))) ++ repeat 1 q).
        { rewrite <- (rev_involutive (drop1 s)) at 1. rewrite E2 at 1.
          now rewrite rev_app_distr, rev_repeat. }
        destruct (rev (drop1 (rev (drop1 s)))) as [|x r] eqn:Er; [congruence|].
        simpl. pose proof (D s) as Ds. rewrite E in Ds. simpl in Ds. apply Ds. discriminate.
      * specialize (D _ Hr). destruct (drop1 (rev (drop1 s))) as [|x r]; [congruence|].
        simpl in *. rewrite last_last. exact D.
Qed.

(** The rank adjusting functions: exact rank, kept dimensions, padding with ones. *)
Lemma C06_with_rank_lemma :
  forall (s : shape) (r : nat),
    rank (with_rank s r) = r /\
    (forall k, k < r -> nth k (with_rank s r) 0 = (if k <? rank s then nth k s 0 else 1)) /\
    rank (with_rank_at_least s r) = Nat.max r (rank s) /\
    with_rank_at_least s r = s ++ repeat 1 (r - rank s) /\
    rank (with_rank_at_most s r) = Nat.min r (rank s) /\
    (forall k, k < Nat.min r (rank s) -> nth k (with_rank_at_most s r) 0 = nth k s 0) /\
    (s <> [] -> n_elems (with_rank_at_least s r) = n_elems s) /\
    (s <> [] -> rank s <= r -> n_elems (with_rank s r) = n_elems s).
Proof.
  intros s r. unfold rank.
  split; [apply with_rank_length|]. split; [intros; now apply with_rank_nth|].
  split; [rewrite with_rank_at_least_eq, app_length, repeat_length; lia|].
  split; [apply with_rank_at_least_eq|].
  split; [rewrite with_rank_at_most_eq, firstn_length; lia|].
  split; [intros; rewrite with_rank_at_most_eq; apply nth_firstn_lt; lia|].
  assert (P : s <> [] -> n_elems (s ++ repeat 1 (r - length s)) = n_elems s).
  { intros H. rewrite !n_elems_prod by (destruct s; simpl; congruence).
    rewrite prod_app, prod_repeat_1. lia. }
  split; [intros; rewrite with_rank_at_least_eq; auto|].
  intros H Hr. unfold with_rank. destruct (Nat.ltb_spec r (length s)); [lia|].
  destruct (Nat.ltb_spec (length s) r); auto.
Qed.

(** concatenate appends: ranks add, element counts multiply; the undefined shape is neutral. *)
Lemma C06_concatenate_lemma :
  forall a b c : shape,
    rank (concatenate a b) = rank a + rank b /\
    concatenate [] b = b /\ concatenate a [] = a /\
    concatenate (concatenate a b) c = concatenate a (concatenate b c) /\
    (a <> [] -> b <> [] -> n_elems (concatenate a b) = n_elems a * n_elems b).
Proof.
  intros a b c. rewrite !concatenate_app. unfold rank. rewrite app_length.
  split; auto. split; auto. split; [apply app_nil_r|]. split; [now rewrite app_assoc|].
  intros Ha Hb. rewrite !n_elems_prod by (destruct a; simpl; congruence).
  apply prod_app.
Qed.

(** with_rank below the rank drops trailing dimensions, and so loses elements. *)
Lemma C06_with_rank_truncates_refuted_lemma :
  exists (s : shape) (r : nat), is_fully_defined s = true /\ r < rank s /\
    n_elems (with_rank s r) <> n_elems s.
Proof. exists [2; 3], 1. split; [reflexivity|]. split; [unfold rank; simpl; lia|discriminate]. Qed.

Lemma C06_nonvacuous_lemma :
  trim [1; 2; 1; 3; 1] = Ok [2; 1; 3] /\ trim [1; 1] = Ok [] /\
  with_rank [2; 3] 3 = [2; 3; 1] /\ with_rank_at_most [2; 3; 4] 2 = [2; 3] /\ unpad [1; 2; 1] <> [].
Proof. repeat split; discriminate. Qed.

Lemma fold_wrap s a :
  fold_left (fun a b => wrap64 (a * b)) s (wrap64 a) = wrap64 (a * prodN s)%N.
Proof.
  revert a; induction s as [|d s IH]; intros a; cbn [fold_left prodN].
  - now rewrite N.mul_1_r.
  - replace (wrap64 (wrap64 a * d)) with (wrap64 (a * d)).
    + rewrite IH. f_equal. lia.
    + unfold wrap64. rewrite N.mul_mod_idemp_l; auto. discriminate.
Qed.

Lemma fold_wrap_known s a :
  fold_left (fun a b => if (b =? 0)%N then a else wrap64 (a * b)) s (wrap64 a) =
  wrap64 (a * prodN (filter (fun d => negb (d =? 0)%N) s))%N.
Proof.
  revert a; induction s as [|d s IH]; intros a; cbn [fold_left filter prodN].
  - now rewrite N.mul_1_r.
  - destruct (N.eqb_spec d 0); cbn [negb].
    + apply IH.
    + replace (wrap64 (wrap64 a * d)) with (wrap64 (a * d)).
      * rewrite IH. cbn [prodN]. f_equal. lia.
      * unfold wrap64. rewrite N.mul_mod_idemp_l; auto. discriminate.
Qed.

Lemma prodN_prod s : prodN (map N.of_nat s) = N.of_nat (prod s).
Proof. induction s; cbn [map prodN prod]; auto. rewrite IHs. lia. Qed.

Lemma n_elems64_eq s : s <> [] -> n_elems64 s = wrap64 (prodN s).
Proof.
  intros H. unfold n_elems64. destruct s; [congruence|].
  change 1%N with (wrap64 1) at 1. rewrite fold_wrap. f_equal. lia.
Qed.

(** With size_t arithmetic the element count is the product modulo 2^64; it is the
    exact product (and agrees with the unbounded model) when that is below 2^64. *)
Lemma C07_element_count_exact_below_2_64_lemma :
  (forall s : list N, s <> [] -> n_elems64 s = (prodN s mod 2 ^ 64)%N) /\
  (forall s : list N, s <> [] -> (prodN s < 2 ^ 64)%N -> n_elems64 s = prodN s) /\
  (forall s : shape, s <> [] -> (N.of_nat (n_elems s) < 2 ^ 64)%N ->
      n_elems64 (map N.of_nat s) = N.of_nat (n_elems s)) /\
  (forall s : list N, s <> [] -> (prodN (filter (fun d => negb (d =? 0)%N) s) < 2 ^ 64)%N ->
      n_known64 s = prodN (filter (fun d => negb (d =? 0)%N) s)).
Proof.
  split; [exact n_elems64_eq|]. split.
  { intros s H Hlt. rewrite n_elems64_eq by auto. now apply N.mod_small. }
  split.
  - intros s H Hlt. rewrite n_elems64_eq.
    + rewrite prodN_prod, <- n_elems_prod by auto. now apply N.mod_small.
    + destruct s; simpl; congruence.
  - intros s H Hlt. unfold n_known64. destruct s as [|d s]; [congruence|].
    change 1%N with (wrap64 1) at 1. rewrite fold_wrap_known, N.mul_1_l. now apply N.mod_small.
Qed.

(** A fully defined shape whose 64-bit element count is 0 although it describes 2^64
    elements: a tensor of that shape gets a zero-byte buffer from the allocator. *)
Lemma C07_element_count_overflow_refuted_lemma :
  exists s : list N, Forall (fun d => (0 < d < 2 ^ 64)%N) s /\ s <> [] /\
    (prodN s = 2 ^ 64)%N /\ n_elems64 s = 0%N /\ alloc_bytes64 (n_elems64 s) 8 = Some 0%N.
Proof.
  exists [2 ^ 32; 2 ^ 32]%N. split.
  - repeat constructor.
  - repeat split. discriminate.
Qed.

(** The allocator's own overflow check is right: if it asks for memory at all, the byte
    count is the exact product. *)
Lemma C07_allocate_bytes_exact_lemma :
  forall n es b : N, (0 < es)%N -> (n < 2 ^ 64)%N ->
    alloc_bytes64 n es = Some b -> b = (n * es)%N /\ (b < 2 ^ 64)%N.
Proof.
  intros n es b He Hn H. unfold alloc_bytes64 in H.
  destruct (N.ltb_spec ((2 ^ 64 - 1) / es) n) as [|Hle]; [discriminate|]. injection H as H.
  assert (n * es <= 2 ^ 64 - 1)%N.
  { apply N.le_trans with ((2 ^ 64 - 1) / es * es)%N.
    - now apply N.mul_le_mono_r.
    - rewrite N.mul_comm. apply N.mul_div_le. lia. }
  assert (n * es < 2 ^ 64)%N by lia.
  unfold wrap64 in H. rewrite N.mod_small in H by auto. subst; auto.
Qed.

Lemma C07_nonvacuous_lemma :
  n_elems64 [1000; 1000; 1000]%N = 1000000000%N /\ alloc_bytes64 10 8 = Some 80%N /\
  alloc_bytes64 (2 ^ 62) 8 = None.
Proof. repeat split. Qed.
