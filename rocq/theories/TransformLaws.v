(** Property lemmas about shape-changing operations (C08 operator form, C16 - C20, C48). *)
From Coq Require Import NArith.
From Verif Require Import Common ShapeModel ShapeSpec ShapeProofs FitModel FitProofs TransformModel TransformSpec TransformProofs CrossCorrProofs.

(** The fit operator fills the destination with the argument's element where the
    coordinate exists in the argument and zero elsewhere. *)
Lemma C08_fit_operator_lemma :
  forall (T : Type) (zero : T) (ins watch : shape) (src dest : list T),
    is_fully_defined ins = true -> is_fully_defined watch = true ->
    length src = n_elems ins -> length dest = n_elems watch ->
    exists dest', fit_op_fwd zero watch ins watch src dest = Ok dest' /\ length dest' = length dest /\
      forall c, in_bounds watch c ->
        (belongs ins c -> nth_error dest' (offset watch c) = nth_error src (offset ins c)) /\
        (~ belongs ins c -> nth_error dest' (offset watch c) = Some zero).
Proof.
  intros T zero ins watch src dest Hi Hw Ls Ld. apply is_fully_defined_iff in Hi, Hw. unfold fit_op_fwd.
  destruct (for_fill (fun i d =>
      coords <- coordinate_from_idx watch i ;;
      lo <- fit_op_low (Nat.min (length ins) (length watch)) 0 coords ins ;;
      hi <- (if lo then fit_op_high (length coords - Nat.min (length ins) (length watch)) (Nat.min (length ins) (length watch)) coords else Ok false) ;;
      (if hi then k <- flat_idx ins coords ;; v <- rd src k ;; wr d i v else wr d i zero))
    (fun i => if belongsb ins (coords watch i) then nth (offset ins (coords watch i)) src zero else zero)
    (n_elems watch) dest ltac:(lia)) as [d' [E [L [H1 _]]]].
  - intros i d Hlt Hl. rewrite coordinate_from_idx_coords by apply Hw. cbn [bind].
    set (c := coords watch i). assert (Lc : length c = length watch) by apply coords_length.
    rewrite fit_op_low_ok by lia. cbn [bind].
    pose proof (fit_op_belongs ins c (proj2 Hi)) as B. rewrite Lc in B.
    set (lo := forallb (fun m => nth m c 0 <? nth m ins 0) (seq 0 (Nat.min (length ins) (length watch)))) in *.
    assert (E2 : (if lo then fit_op_high (length c - Nat.min (length ins) (length watch)) (Nat.min (length ins) (length watch)) c else Ok false)
       = Ok (belongsb ins c)).
    { rewrite <- B. destruct lo; cbn [andb]; auto. rewrite fit_op_high_ok by lia. rewrite Lc. reflexivity. }
    rewrite E2. cbn [bind]. destruct (belongsb ins c) eqn:Bc.
    + apply belongsb_iff in Bc. assert (Hne : c <> []). { intros C. rewrite C in Lc. destruct Hw as [Hw _]. destruct watch; cbn in *; congruence. }
      rewrite flat_idx_offset by (auto; apply Hi). cbn [bind].
      pose proof (belongs_offset_lt ins c (proj2 Hi) Bc) as Ho. rewrite <- n_elems_prod in Ho by apply Hi.
      rewrite (rd_nth src _ zero) by lia. cbn [bind]. apply wr_ok. lia.
    + apply wr_ok. lia.
  - exists d'. split; auto. split; auto. intros c Hc.
    rewrite H1 by now apply in_bounds_offset_lt. rewrite coords_offset by auto. split.
    + intros Hb. rewrite (proj2 (belongsb_iff ins c) Hb). symmetry. apply nth_error_nth_lt.
      pose proof (belongs_offset_lt ins c (proj2 Hi) Hb) as Ho. rewrite <- n_elems_prod in Ho by apply Hi. lia.
    + intros Hb. destruct (belongsb ins c) eqn:B; auto. apply belongsb_iff in B. contradiction.
Qed.

Lemma C08_nonvacuous_operator_lemma :
  fit_op_fwd 0 [2; 3] [3; 2] [2; 3] [1; 2; 3; 4; 5; 6] (repeat 7 6) = Ok [1; 2; 4; 5; 0; 0].
Proof. reflexivity. Qed.

(** ---- C16 ---- *)

(** For axes below the rank (in either order) the result shape has the two dimensions
    exchanged and as many elements, and after the forward pass the element at every
    coordinate is the argument's element at the exchanged coordinate, whatever the
    destination held before. *)
Lemma C16_transpose_elements_lemma :
  forall (T : Type) (ins : shape) (i j : nat) (src dest : list T),
    is_fully_defined ins = true -> i < length ins -> j < length ins ->
    length src = n_elems ins -> length dest = n_elems ins ->
    exists outs dest', transpose_shape (order_axes (i, j)) ins = Ok outs /\ outs = swapc i j ins /\
      n_elems outs = n_elems ins /\
      transpose_fwd (order_axes (i, j)) outs ins src dest = Ok dest' /\ length dest' = n_elems outs /\
      forall c, in_bounds outs c -> nth_error dest' (offset outs c) = nth_error src (offset ins (swapc i j c)).
Proof.
  intros T ins i j src dest F Hi Hj Ls Ld. apply is_fully_defined_iff in F.
  pose proof (swapc_defined i j ins Hi Hj F) as Fs.
  assert (En : n_elems (swapc i j ins) = n_elems ins).
  { rewrite !n_elems_prod by (apply F || apply Fs). apply prod_swapc; auto. apply F. }
  assert (G : forall a b, a < length ins -> b < length ins ->
     exists dest', transpose_shape (a, b) ins = Ok (swapc a b ins) /\
       transpose_fwd (a, b) (swapc a b ins) ins src dest = Ok dest' /\ (n_elems (swapc a b ins) = n_elems ins -> length dest' = n_elems (swapc a b ins)) /\
       forall c, in_bounds (swapc a b ins) c -> nth_error dest' (offset (swapc a b ins) c) = nth_error src (offset ins (swapc a b c))).
  { intros a b Ha Hb. pose proof (swapc_defined a b ins Ha Hb F) as Fab.
    assert (Eab : n_elems (swapc a b ins) = n_elems ins).
    { rewrite !n_elems_prod by (apply F || apply Fab). apply prod_swapc; auto. apply F. }
    unfold transpose_shape, transpose_fwd. cbn [fst snd]. rewrite (proj2 (is_fully_defined_iff ins) F).
    destruct (Nat.leb_spec (length ins) b); [lia|]. destruct (Nat.leb_spec (length ins) a); [lia|].
    rewrite swap_at_ok by auto.
    destruct (gather_ok (swapc a b ins) ins (fun c => swap_at c a b) src dest (swapc a b)) as [d' [E [L [H1 _]]]]; auto.
    - apply F.
    - lia.
    - intros c Hc. pose proof (in_bounds_length _ _ Hc) as Lc. rewrite length_swapc in Lc.
      pose proof (swapc_in_bounds a b ins c Ha Hb Hc) as Hsc.
      rewrite swap_at_ok by lia. split; auto. split.
      + now apply (in_bounds_nonnil ins).
      + rewrite Ls. now apply in_bounds_offset_lt.
    - exists d'. split; auto. split; auto. split; [lia|auto]. }
  destruct (order_axes_cases i j) as [E|E]; rewrite E.
  - destruct (G i j Hi Hj) as [d' [E1 [E2 [E3 E4]]]]. exists (swapc i j ins), d'. repeat (split; [now auto|]). exact E4.
  - destruct (G j i Hj Hi) as [d' [E1 [E2 [E3 E4]]]]. exists (swapc i j ins), d'.
    rewrite (swapc_sym j i ins) in *. repeat (split; [now auto|]).
    intros c Hc. rewrite (swapc_sym i j c). auto.
Qed.

(** Transposing twice along the same axes restores the argument exactly. *)
Lemma C16_transpose_twice_lemma :
  forall (T : Type) (ins : shape) (i j : nat) (src d1 d2 : list T) outs t1,
    is_fully_defined ins = true -> i < length ins -> j < length ins ->
    length src = n_elems ins -> length d1 = n_elems ins -> length d2 = n_elems ins ->
    transpose_shape (order_axes (i, j)) ins = Ok outs ->
    transpose_fwd (order_axes (i, j)) outs ins src d1 = Ok t1 ->
    transpose_shape (order_axes (i, j)) outs = Ok ins /\
    transpose_fwd (order_axes (i, j)) ins outs t1 d2 = Ok src.
Proof.
  intros T ins i j src d1 d2 outs t1 F Hi Hj Ls L1 L2 Es Ef.
  destruct (C16_transpose_elements_lemma T ins i j src d1 F Hi Hj Ls L1) as [o [t [E1 [Eo [En [E2 [Lt Ht]]]]]]].
  assert (Xo : o = outs) by congruence. rewrite Xo in *. clear o Xo. assert (Xt : t = t1) by congruence. rewrite Xt in *. clear t Xt. clear E1 E2.
  pose proof F as Fd. apply is_fully_defined_iff in Fd.
  pose proof (swapc_defined i j ins Hi Hj Fd) as Fs. rewrite <- Eo in Fs.
  assert (Lo : length outs = length ins) by (rewrite Eo; apply length_swapc).
  destruct (C16_transpose_elements_lemma T outs i j t1 d2) as [o2 [t2 [E1 [Eo2 [En2 [E2 [Lt2 Ht2]]]]]]]; try lia.
  { now apply is_fully_defined_iff. }
  assert (Xo : o2 = ins). { rewrite Eo2, Eo. now apply swapc_invol. }
  rewrite Xo in *. split; auto. rewrite E2. f_equal.
  apply (list_eq_by_offset ins); auto; try lia.
  intros c Hc. rewrite Ht2 by auto.
  assert (Hs : in_bounds outs (swapc i j c)) by (rewrite Eo; now apply swapc_in_bounds').
  rewrite Ht by auto. rewrite swapc_invol; auto; apply in_bounds_length in Hc; lia.
Qed.

(** Exchanging the last dimension with one beyond the rank inserts dimensions of size one
    and keeps every element. *)
Lemma C16_transpose_new_axis_lemma :
  forall (T : Type) (s : shape) (d k : nat) (ax : nat * nat) (src dest : list T),
    is_fully_defined (s ++ [d]) = true -> 0 < k -> ax = (length s, length s + k) \/ ax = (length s + k, length s) ->
    length src = n_elems (s ++ [d]) -> length dest = n_elems (s ++ [d]) ->
    exists dest', transpose_shape (order_axes ax) (s ++ [d]) = Ok (s ++ repeat 1 k ++ [d]) /\
      transpose_fwd (order_axes ax) (s ++ repeat 1 k ++ [d]) (s ++ [d]) src dest = Ok dest' /\
      forall c x, in_bounds s c -> x < d ->
        nth_error dest' (offset (s ++ repeat 1 k ++ [d]) (c ++ repeat 0 k ++ [x])) = nth_error src (offset (s ++ [d]) (c ++ [x])).
Proof.
  intros T s d k ax src dest F Hk Hax Ls Ld. pose proof F as Fd. apply is_fully_defined_iff in Fd.
  assert (Ea : order_axes ax = (length s, length s + k)).
  { unfold order_axes. destruct Hax as [-> | ->]; cbn [fst snd];
      [destruct (Nat.ltb_spec (length s + k) (length s)) | destruct (Nat.ltb_spec (length s) (length s + k))]; auto; lia. }
  rewrite Ea. unfold transpose_shape, transpose_fwd. cbn [fst snd]. rewrite F. rewrite !app_length. cbn [length].
  destruct (Nat.leb_spec (length s + 1) (length s + k)); [|lia].
  destruct (Nat.leb_spec (length s + 1) (length s)); [lia|].
  assert (En : n_elems (s ++ repeat 1 k ++ [d]) = n_elems (s ++ [d])).
  { rewrite !n_elems_prod by (destruct s; discriminate || (destruct k; [lia|discriminate])).
    rewrite !prod_app, prod_repeat_1. cbn. lia. }
  destruct (memcpy_ok dest src 0 0 (n_elems (s ++ repeat 1 k ++ [d]))) as [d' [E [L Hm]]]; [lia|lia|].
  exists d'. split; [|split; auto].
  - rewrite swap_at_ok; rewrite ?app_length, ?repeat_length; cbn [length]; try lia. f_equal.
    apply nth_ext0; rewrite length_swapc, !app_length, !repeat_length; cbn [length]; [lia|].
    intros m Hm'. rewrite nth_swapc by (rewrite !app_length, repeat_length; cbn [length]; lia). unfold swapped.
    replace (length s + k - (length s + 1) + 1) with k by lia.
    rewrite <- !app_assoc.
    assert (N1 : forall u v w, nth (length s) (s ++ [u] ++ v) w = u) by (intros; rewrite app_nth2, Nat.sub_diag by lia; reflexivity).
    assert (N2 : nth (length s) (s ++ repeat 1 k ++ [d]) 0 = 1).
    { rewrite app_nth2, Nat.sub_diag by lia. destruct k; [lia|reflexivity]. }
    assert (N3 : nth (length s + k) (s ++ repeat 1 k ++ [d]) 0 = d).
    { rewrite app_nth2 by lia. rewrite app_nth2 by (rewrite repeat_length; lia). rewrite repeat_length.
      replace (length s + k - length s - k) with 0 by lia. reflexivity. }
    assert (R1 : forall m, m < k -> nth m (repeat 1 k) 0 = 1).
    { clear. induction k; intros [|m] Hm; cbn; try lia; auto. apply IHk; lia. }
    assert (N4 : nth (length s + k) (s ++ [d] ++ repeat 1 k) 0 = 1).
    { rewrite app_nth2 by lia. cbn [app]. replace (length s + k - length s) with (S (k - 1)) by lia. cbn [nth]. apply R1. lia. }
    destruct (Nat.eqb_spec m (length s)) as [->|].
    + rewrite N4, N2. reflexivity.
    + destruct (Nat.eqb_spec m (length s + k)) as [->|]; [now rewrite N1, N3|].
      destruct (Nat.lt_ge_cases m (length s)).
      * rewrite !app_nth1 by auto. reflexivity.
      * rewrite !(app_nth2 s) by lia. destruct (m - length s) as [|q] eqn:Eq; [lia|].
        change (nth (S q) ([d] ++ repeat 1 k) 0) with (nth q (repeat 1 k) 0). rewrite R1 by lia.
        rewrite app_nth1 by (rewrite repeat_length; lia). rewrite R1 by lia. reflexivity.
  - intros c x Hc Hx. rewrite Hm.
    assert (Lc : length s = length c) by (symmetry; now apply in_bounds_length).
    assert (Eo : offset (s ++ repeat 1 k ++ [d]) (c ++ repeat 0 k ++ [x]) = offset (s ++ [d]) (c ++ [x])).
    { rewrite (offset_app s [d] c [x]) by auto. rewrite offset_app by auto. rewrite offset_app by now rewrite !repeat_length.
      rewrite prod_repeat_1. assert (offset (repeat 1 k) (repeat 0 k) = 0) as ->.
      { clear. induction k; cbn; auto. rewrite IHk. reflexivity. }
      lia. }
    rewrite Eo.
    assert (Hin : in_bounds (s ++ [d]) (c ++ [x])) by (apply in_bounds_app; auto; constructor; auto).
    pose proof (in_bounds_offset_lt _ _ Fd Hin) as Ho. rewrite En.
    destruct (Nat.leb_spec 0 (offset (s ++ [d]) (c ++ [x]))); [|lia].
    destruct (Nat.ltb_spec (offset (s ++ [d]) (c ++ [x])) (0 + n_elems (s ++ [d]))); [|lia].
    cbn [andb]. f_equal. lia.
Qed.

(** Exchanging any other dimension with one beyond the rank keeps the storage order, which
    puts elements at wrong coordinates. *)
Lemma C16_transpose_new_axis_scrambles_refuted_lemma :
  exists outs dest', transpose_shape (0, 2) [2; 3] = Ok outs /\ outs = [1; 3; 2] /\
    transpose_fwd (0, 2) outs [2; 3] [10; 11; 12; 13; 14; 15] (repeat 0 6) = Ok dest' /\
    (* element (x=0, y=1) of the argument should be at (0, 1, 0) of the result *)
    nth_error [10; 11; 12; 13; 14; 15] (offset [2; 3] [0; 1]) = Some 12 /\
    nth_error dest' (offset outs [0; 1; 0]) = Some 11.
Proof. eexists _, _. split; [reflexivity|]. split; [reflexivity|]. split; [reflexivity|]. split; reflexivity. Qed.

(** When both axes are beyond the rank the destination is never written: it keeps whatever
    the fresh buffer held. *)
Lemma C16_transpose_beyond_rank_unwritten_refuted_lemma :
  forall (T : Type) (ins outs : shape) (i j : nat) (src dest : list T),
    length ins <= i -> i <= j -> transpose_fwd (order_axes (i, j)) outs ins src dest = Ok dest.
Proof.
  intros T ins outs i j src dest H1 H2. unfold order_axes. cbn [fst snd].
  destruct (Nat.ltb_spec j i); [lia|]. unfold transpose_fwd. cbn [fst].
  destruct (Nat.leb_spec (length ins) i); [reflexivity|lia].
Qed.

Lemma C16_nonvacuous_lemma :
  transpose_shape (order_axes (2, 0)) [2; 1; 3] = Ok [3; 1; 2] /\
  transpose_fwd (order_axes (2, 0)) [3; 1; 2] [2; 1; 3] [1; 2; 3; 4; 5; 6] (repeat 0 6) = Ok [1; 3; 5; 2; 4; 6].
Proof. split; reflexivity. Qed.

(** ---- C17 ---- *)

(** extend along an existing axis: the dimension is multiplied and the element at each
    coordinate is the argument's element with that entry reduced modulo the old dimension. *)
Lemma C17_extend_elements_lemma :
  forall (T : Type) (ins : shape) (index m : nat) (src dest : list T),
    is_fully_defined ins = true -> index < length ins -> 0 < m ->
    length src = n_elems ins -> length dest = m * n_elems ins ->
    exists outs dest', extend_shape index m ins = Ok outs /\
      outs = set_nth index (nth index ins 0 * m) ins /\ n_elems outs = m * n_elems ins /\
      extend_fwd index outs ins src dest = Ok dest' /\ length dest' = n_elems outs /\
      forall c, in_bounds outs c ->
        in_bounds ins (set_nth index (nth index c 0 mod nth index ins 0) c) /\
        nth_error dest' (offset outs c) = nth_error src (offset ins (set_nth index (nth index c 0 mod nth index ins 0) c)).
Proof.
  intros T ins index m src dest F Hi Hm Ls Ld. pose proof F as Fd. apply is_fully_defined_iff in Fd.
  pose proof (nth_pos ins index Fd Hi) as Hp.
  set (outs := set_nth index (nth index ins 0 * m) ins).
  assert (Fo : defined outs).
  { split; [|apply set_nth_Forall; [nia|apply Fd]]. intros C. apply (f_equal (@length nat)) in C. unfold outs in C.
    rewrite length_set_nth in C. cbn in C. lia. }
  assert (En : n_elems outs = m * n_elems ins).
  { rewrite !n_elems_prod by (apply Fd || apply Fo). pose proof (prod_set_nth index (nth index ins 0 * m) ins Hi) as P. fold outs in P.
    apply Nat.mul_cancel_l with (p := nth index ins 0); [lia|]. rewrite P. ring. }
  assert (Hin : forall c, in_bounds outs c -> in_bounds ins (set_nth index (nth index c 0 mod nth index ins 0) c)).
  { intros c Hc. apply in_bounds_nth in Hc. unfold outs in Hc. rewrite length_set_nth in Hc. destruct Hc as [Hl Hc].
    apply in_bounds_nth. rewrite length_set_nth. split; auto. intros k Hk. rewrite nth_set_nth.
    destruct (Nat.eqb_spec index k) as [<-|Hne]; cbn [andb].
    - destruct (Nat.ltb_spec index (length c)); [|lia]. apply Nat.mod_upper_bound. lia.
    - specialize (Hc k Hk). rewrite nth_set_nth in Hc. destruct (Nat.eqb_spec index k); [congruence|]. exact Hc. }
  destruct (gather_ok outs ins (fun c => x <- rd c index ;; if nth index ins 0 =? 0 then UB else wr c index (x mod nth index ins 0)) src dest
     (fun c => set_nth index (nth index c 0 mod nth index ins 0) c)) as [d' [E [L [H1 _]]]]; auto.
  - apply Fd.
  - lia.
  - intros c Hc. pose proof (in_bounds_length _ _ Hc) as Lc. unfold outs in Lc. rewrite length_set_nth in Lc.
    rewrite (rd_nth c index 0) by lia. cbn [bind]. destruct (Nat.eqb_spec (nth index ins 0) 0); [lia|].
    rewrite wr_ok by lia. split; auto. specialize (Hin c Hc). split.
    + now apply (in_bounds_nonnil ins).
    + rewrite Ls. now apply in_bounds_offset_lt.
  - exists outs, d'. split.
    { unfold extend_shape. rewrite F. cbn [assert_ bind]. destruct (Nat.leb_spec (length ins) index); [lia|].
      rewrite (rd_nth ins index 0) by auto. cbn [bind]. now apply wr_ok. }
    split; auto. split; auto. split; [unfold extend_fwd; rewrite (rd_nth ins index 0) by auto; exact E|].
    split; [lia|]. intros c Hc. split; auto.
Qed.

(** multiplier 0 gives the constant 0 and multiplier 1 the argument itself *)
Lemma C17_extend_trivial_multipliers_lemma :
  forall m, (extend_case m = ExtendZero <-> m = 0) /\ (extend_case m = ExtendSame <-> m = 1) /\
            (extend_case m = ExtendNode <-> 2 <= m).
Proof.
  intros m. unfold extend_case. destruct (Nat.eqb_spec m 0), (Nat.eqb_spec m 1);
    repeat split; intros; subst; try discriminate; try lia; auto.
Qed.

(** Extending along an axis that does not exist yet computes a result shape but then reads
    outside the dimension list. *)
Lemma C17_extend_new_axis_refuted_lemma :
  forall (T : Type) (ins outs : shape) (index : nat) (src dest : list T),
    length ins <= index -> extend_fwd index outs ins src dest = UB.
Proof.
  intros T ins outs index src dest H. unfold extend_fwd, rd. now rewrite (proj2 (nth_error_None ins index) H).
Qed.

Lemma C17_nonvacuous_lemma :
  extend_shape 0 2 [2; 2] = Ok [4; 2] /\
  extend_fwd 0 [4; 2] [2; 2] [1; 2; 3; 4] (repeat 0 8) = Ok [1; 2; 1; 2; 3; 4; 3; 4] /\
  extend_shape 2 3 [2] = Ok [2; 1; 3].
Proof. split; [|split]; reflexivity. Qed.

(** ---- C18 ---- *)

(** The result shape of a reduction along an axis: the axis disappears when it is first or
    last and becomes 1 in the middle (a rank-1 argument gives [1]); an axis beyond the
    rank keeps the shape. *)
Lemma C18_reduced_shape_lemma :
  forall (ins : shape) (idx : nat), is_fully_defined ins = true ->
    (length ins <= idx -> compress_shape idx ins = Ok ins) /\
    (idx < length ins ->
       compress_shape idx ins = Ok (if length ins =? 1 then [1]
                                    else if idx =? 0 then skipn 1 ins
                                    else if idx =? length ins - 1 then firstn idx ins
                                    else set_nth idx 1 ins) /\
       forall outs, compress_shape idx ins = Ok outs -> n_elems outs * nth idx ins 0 = n_elems ins).
Proof.
  intros ins idx F. pose proof F as Fd. apply is_fully_defined_iff in Fd. split.
  - intros H. unfold compress_shape. rewrite F. cbn [assert_ bind]. destruct (Nat.leb_spec (length ins) idx); [reflexivity|lia].
  - intros H. rewrite compress_shape_reduced by auto. split.
    + unfold reduced. destruct (length ins =? 1); auto. destruct (idx =? 0); [destruct ins; reflexivity|].
      rewrite (Nat.eqb_sym idx). destruct (Nat.eqb_spec (length ins - 1) idx) as [<-|]; auto.
      destruct ins as [|d t] eqn:E; [cbn in H; lia|]. rewrite <- E in *. rewrite removelast_firstn_len. f_equal. f_equal. lia.
    + intros outs Ho. injection Ho as <-. pose proof (reduced_defined idx ins Fd H) as Fr.
      rewrite !n_elems_prod by (apply Fd || apply Fr). rewrite reduced_prod by auto.
      pose proof (prod_set_nth idx 1 ins H) as P. lia.
Qed.

(** Reducing along an axis below the rank: the element at every coordinate (with 0 in the
    reduced axis) is the left fold, in axis order, of exactly the argument's elements that
    differ only in that axis. Holds for any collector, so for reduce_sum and reduce_max. *)
Lemma C18_compress_folds_axis_lemma :
  forall (T : Type) (f : T -> T -> T) (d0 : T) (ins outs : shape) (idx : nat) (src dest : list T),
    is_fully_defined ins = true -> idx < length ins -> compress_shape idx ins = Ok outs ->
    length src = n_elems ins -> length dest = n_elems outs ->
    exists dest', compress_fwd f idx outs ins src dest = Ok dest' /\ length dest' = n_elems outs /\
      forall c, in_bounds (set_nth idx 1 ins) c ->
        nth_error dest' (offset (set_nth idx 1 ins) c) = Some (fold1 f d0 (along d0 ins src idx c)).
Proof.
  intros T f d0 ins outs idx src dest F Hi Es Ls Ld. apply is_fully_defined_iff in F.
  rewrite compress_shape_reduced in Es by auto. injection Es as <-.
  destruct (compress_fwd_ok f d0 idx ins src dest F Hi Ls ltac:(lia)) as [d' [E [L [H1 _]]]].
  exists d'. split; auto. split; [lia|auto].
Qed.

(** every argument element belongs to exactly one of those fibres, at one place *)
Lemma C18_fibres_partition_lemma :
  forall (ins : shape) (idx : nat) (c : list nat), idx < length ins -> in_bounds ins c ->
    exists! p : list nat * nat,
      in_bounds (set_nth idx 1 ins) (fst p) /\ snd p < nth idx ins 0 /\ set_nth idx (snd p) (fst p) = c.
Proof.
  intros ins idx c Hi Hc. exists (set_nth idx 0 c, nth idx c 0). cbn [fst snd]. split.
  - pose proof (proj1 (in_bounds_nth _ _) Hc) as [L Hb]. split; [|split; [now apply Hb|]].
    + cbn [fst snd]. apply in_bounds_nth. rewrite !length_set_nth. split; [auto|]. intros k Hk. rewrite !nth_set_nth.
      destruct (Nat.eqb_spec idx k) as [<-|]; cbn [andb].
      * destruct (Nat.ltb_spec idx (length c)), (Nat.ltb_spec idx (length ins)); lia.
      * now apply Hb.
    + cbn [fst snd]. rewrite set_nth_set_nth. apply set_nth_self.
  - intros [a j] [H1 [H2 H3]]. cbn [fst snd] in *. subst c.
    apply in_bounds_nth in H1. rewrite length_set_nth in H1. destruct H1 as [La Ha].
    rewrite set_nth_set_nth, nth_set_nth, Nat.eqb_refl. destruct (Nat.ltb_spec idx (length a)); [|lia]. cbn [andb]. f_equal.
    specialize (Ha idx Hi). rewrite nth_set_nth, Nat.eqb_refl in Ha. destruct (Nat.ltb_spec idx (length ins)); [|lia]. cbn [andb] in Ha.
    assert (nth idx a 0 = 0) by lia. rewrite <- H1. apply set_nth_self.
Qed.

(** without an axis, the single result element is the fold of all elements in order *)
Lemma C18_compress_all_lemma :
  forall (T : Type) (f : T -> T -> T) (d0 : T) (ins : shape) (src dest : list T),
    is_fully_defined ins = true -> length src = n_elems ins -> length dest = n_elems (compress_all_shape ins) ->
    compress_all_fwd f ins src dest = Ok [fold1 f d0 src].
Proof.
  intros T f d0 ins src dest F Ls Ld. apply is_fully_defined_iff in F. cbn in Ld.
  rewrite (compress_all_ok f d0) by (auto; lia). destruct dest as [|x [|]]; try discriminate. reflexivity.
Qed.

(** an axis beyond the rank: the result is a copy of the argument *)
Lemma C18_compress_beyond_rank_copies_lemma :
  forall (T : Type) (f : T -> T -> T) (ins : shape) (idx : nat) (src dest : list T),
    is_fully_defined ins = true -> length ins <= idx ->
    length src = n_elems ins -> length dest = n_elems ins ->
    compress_fwd f idx ins ins src dest = Ok src.
Proof.
  intros T f ins idx src dest F H Ls Ld. unfold compress_fwd. destruct (Nat.leb_spec (length ins) idx); [|lia].
  destruct (memcpy_ok dest src 0 0 (n_elems ins)) as [d' [E [L Hm]]]; [lia|lia|]. rewrite E. f_equal.
  apply nth_error_ext_lt; [lia|]. intros i Hi. rewrite Hm.
  destruct (Nat.leb_spec 0 i); [|lia]. destruct (Nat.ltb_spec i (0 + n_elems ins)); [|lia]. cbn [andb]. f_equal. lia.
Qed.

Lemma C18_nonvacuous_lemma :
  compress_shape 1 [2; 3; 2] = Ok [2; 1; 2] /\
  compress_fwd Nat.add 1 [2; 1; 2] [2; 3; 2] [1; 2; 3; 4; 5; 6; 7; 8; 9; 10; 11; 12] (repeat 0 4) = Ok [9; 12; 27; 30] /\
  compress_shape 0 [2; 3] = Ok [3] /\ compress_fwd Nat.max 0 [3] [2; 3] [1; 2; 4; 3; 5; 6] (repeat 0 3) = Ok [2; 4; 6] /\
  compress_all_fwd Nat.add [2; 3] [1; 2; 4; 3; 5; 6] [0] = Ok [21].
Proof. repeat split; reflexivity. Qed.

(** ---- C19 ---- *)

(** arg_max along an axis returns, for every coordinate, the position of the first maximum
    among exactly the elements along that axis. *)
Lemma C19_arg_max_axis_lemma :
  forall (T : Type) (lt : T -> T -> bool) (of_nat : nat -> T) (d0 : T) (ins outs : shape) (idx : nat) (src dest : list T),
    strict_order lt ->
    is_fully_defined ins = true -> idx < length ins -> arg_compress_shape idx ins = Ok outs ->
    length src = n_elems ins -> length dest = n_elems outs ->
    exists dest', arg_compress_fwd (arg_max_search lt of_nat) idx outs ins src dest = Ok dest' /\
      length dest' = n_elems outs /\ compress_shape idx ins = Ok outs /\
      forall c, in_bounds (set_nth idx 1 ins) c ->
        exists k, nth_error dest' (offset (set_nth idx 1 ins) c) = Some (of_nat k) /\
          k < nth idx ins 0 /\ first_max lt d0 (along d0 ins src idx c) k.
Proof.
  intros T lt of_nat d0 ins outs idx src dest Ho F Hi Es Ls Ld. apply is_fully_defined_iff in F.
  rewrite arg_compress_shape_reduced in Es by auto. injection Es as <-.
  set (best := fun l => match arg_max_search lt of_nat l with Ok x => x | _ => d0 end).
  destruct (arg_compress_fwd_ok (arg_max_search lt of_nat) d0 best idx ins src dest F Hi Ls ltac:(lia)) as [d' [E [L [H1 _]]]].
  { intros l Hl. destruct l; [congruence|]. reflexivity. }
  exists d'. split; auto. split; [lia|]. split; [now apply compress_shape_reduced|].
  intros c Hc. rewrite H1 by auto.
  assert (Hne : along d0 ins src idx c <> []).
  { intros C. apply (f_equal (@length T)) in C. rewrite along_length in C. pose proof (nth_pos ins idx F Hi). cbn in C. lia. }
  destruct (arg_max_first lt of_nat d0 _ Ho Hne) as [k [Ek Hk]]. exists k. split.
  - unfold best. rewrite Ek. reflexivity.
  - split; auto. destruct Hk as [Hk _]. now rewrite along_length in Hk.
Qed.

(** an axis beyond the rank is rejected *)
Lemma C19_arg_max_bad_axis_throws_lemma :
  forall (ins : shape) (idx : nat), is_fully_defined ins = true -> length ins <= idx ->
    arg_compress_shape idx ins = Throw.
Proof.
  intros ins idx F H. unfold arg_compress_shape. rewrite F. cbn [assert_ bind].
  destruct (Nat.leb_spec (length ins) idx); [reflexivity|lia].
Qed.

(** without an axis, element 0 is the flat position of the first maximum of all elements *)
Lemma C19_arg_max_all_lemma :
  forall (T : Type) (lt : T -> T -> bool) (of_nat : nat -> T) (d0 : T) (ins : shape) (src dest : list T),
    strict_order lt -> is_fully_defined ins = true -> length src = n_elems ins ->
    length dest = n_elems (arg_compress_all_shape ins) ->
    exists k, arg_compress_all_fwd (arg_max_search lt of_nat) ins src dest = Ok (set_nth 0 (of_nat k) dest) /\
      first_max lt d0 src k.
Proof.
  intros T lt of_nat d0 ins src dest Ho F Ls Ld. apply is_fully_defined_iff in F.
  unfold arg_compress_all_fwd. rewrite <- Ls, Nat.leb_refl, firstn_all.
  pose proof (n_elems_pos ins F) as Hp.
  destruct (arg_max_first lt of_nat d0 src Ho) as [k [Ek Hk]]; [destruct src; cbn in *; [lia|discriminate]|].
  rewrite Ek. cbn [bind]. exists k. split; auto. apply wr_ok.
  unfold arg_compress_all_shape in Ld. cbn in Ld. destruct F as [Fn _]. destruct ins; [congruence|]. cbn in Ld. lia.
Qed.

(** The result is declared with as many elements as the argument has dimensions, but only
    the first is ever written. *)
Lemma C19_arg_max_all_shape_refuted_lemma :
  arg_compress_all_shape [2; 3] = [2] /\
  forall junk, arg_compress_all_fwd (arg_max_search Nat.ltb (fun n => n)) [2; 3] [1; 5; 2; 0; 9; 3] [junk; junk] = Ok [4; junk].
Proof. split; [reflexivity|]. intros junk. reflexivity. Qed.

Lemma C19_nonvacuous_lemma :
  strict_order Nat.ltb /\
  arg_compress_fwd (arg_max_search Nat.ltb (fun n => n)) 0 [2] [3; 2] [1; 7; 7; 4; 2; 3] [0; 0] = Ok [1; 0] /\
  first_max Nat.ltb 0 [1; 7; 7] 1.
Proof.
  split; [|split; [reflexivity|]].
  - split; [|split].
    + intros x. apply Nat.ltb_irrefl.
    + intros x y H. apply Nat.ltb_lt in H. apply Nat.ltb_ge. lia.
    + intros x y z H1 H2. apply Nat.ltb_ge in H1, H2. apply Nat.ltb_ge. lia.
  - split; [cbn; lia|]. split.
    + intros [|[|[|j]]] Hj; cbn in Hj; try lia; reflexivity.
    + intros [|j] Hj; [reflexivity|lia].
Qed.

(** ---- C20 ---- *)

(** flip keeps the shape; the element at each coordinate is the argument's element at the
    coordinate mirrored in the listed axes (an axis listed twice counts as not listed). *)
Lemma C20_flip_elements_lemma :
  forall (T : Type) (ins : shape) (dims : list nat) (src dest : list T),
    is_fully_defined ins = true -> Forall (fun d => d < length ins) dims ->
    length src = n_elems ins -> length dest = n_elems ins ->
    flip_shape ins = ins /\
    exists dest', flip_fwd dims ins ins src dest = Ok dest' /\ length dest' = n_elems ins /\
      forall c, in_bounds ins c -> nth_error dest' (offset ins c) = nth_error src (offset ins (mirror ins dims c)).
Proof.
  intros T ins dims src dest F HF Ls Ld. apply is_fully_defined_iff in F. split; auto. unfold flip_fwd.
  destruct (gather_ok ins ins (flip_coord ins dims) src dest (mirror ins dims)) as [d' [E [L [H1 _]]]]; auto.
  - apply F.
  - lia.
  - intros c Hc. pose proof (mirror_in_bounds ins dims c Hc) as Hm. split; [now apply flip_coord_ok|]. split.
    + now apply (in_bounds_nonnil ins).
    + rewrite Ls. now apply in_bounds_offset_lt.
  - exists d'. split; auto. split; [lia|auto].
Qed.

(** flipping twice restores the argument *)
Lemma C20_flip_twice_lemma :
  forall (T : Type) (ins : shape) (dims : list nat) (src d1 d2 t1 : list T),
    is_fully_defined ins = true -> Forall (fun d => d < length ins) dims ->
    length src = n_elems ins -> length d1 = n_elems ins -> length d2 = n_elems ins ->
    flip_fwd dims ins ins src d1 = Ok t1 -> flip_fwd dims ins ins t1 d2 = Ok src.
Proof.
  intros T ins dims src d1 d2 t1 F HF Ls L1 L2 E.
  destruct (C20_flip_elements_lemma T ins dims src d1 F HF Ls L1) as [_ [t [E1 [Lt H1]]]].
  assert (t = t1) by congruence. subst t.
  destruct (C20_flip_elements_lemma T ins dims t1 d2 F HF Lt L2) as [_ [t2 [E2 [Lt2 H2]]]].
  rewrite E2. f_equal. apply is_fully_defined_iff in F. apply (list_eq_by_offset ins); auto.
  intros c Hc. rewrite H2, H1 by (auto; now apply mirror_in_bounds). now rewrite mirror_invol.
Qed.

(** An axis not below the rank is not rejected: the forward pass writes outside the
    coordinate vector. *)
Lemma C20_flip_bad_axis_refuted_lemma :
  forall (T : Type) (ins : shape) (d : nat) (src dest : list T),
    is_fully_defined ins = true -> length ins <= d -> flip_fwd [d] ins ins src dest = UB.
Proof.
  intros T ins d src dest F H. apply is_fully_defined_iff in F. unfold flip_fwd, gather.
  pose proof (n_elems_pos ins F). apply (for_exit _ _ 0 _ dest UB); auto; [|discriminate].
  rewrite coordinate_from_idx_coords by apply F. cbn [bind flip_coord]. unfold rd at 1.
  now rewrite (proj2 (nth_error_None ins d) H).
Qed.

Lemma C20_nonvacuous_lemma :
  flip_fwd [1; 0] [2; 2] [2; 2] [1; 2; 3; 4] (repeat 0 4) = Ok [4; 3; 2; 1] /\
  flip_fwd [0] [3; 2] [3; 2] [1; 2; 3; 4; 5; 6] (repeat 0 6) = Ok [3; 2; 1; 6; 5; 4] /\ mirror [3; 2] [0] [0; 1] = [2; 1].
Proof. repeat split; reflexivity. Qed.

(** ---- C48 ---- *)

(** The declared shape has image - filter - 1 positions per correlated axis, two fewer than
    the number of windows (image - filter + 1). *)
Lemma C48_cross_corr_shape_lemma :
  forall (d1 d2 : nat) (img filt : list N) (i1 f1 i2 f2 : N),
    d1 <> d2 -> nth_error img d1 = Some i1 -> nth_error img d2 = Some i2 ->
    nth_error filt d1 = Some f1 -> nth_error filt d2 = Some f2 ->
    (f1 + 1 <= i1)%N -> (f2 + 1 <= i2)%N -> (i1 < 2 ^ 64)%N -> (i2 < 2 ^ 64)%N ->
    cross_corr_shape d1 d2 img filt = Ok (set_nth d2 (i2 - f2 - 1)%N (set_nth d1 (i1 - f1 - 1)%N img)).
Proof.
  intros d1 d2 img filt i1 f1 i2 f2 Hne H1 H2 H3 H4 L1 L2 B1 B2. unfold cross_corr_shape.
  rewrite (rd_ok img d1 i1 H1), (rd_ok filt d1 f1 H3). cbn [bind].
  assert (S : forall x f, (f + 1 <= x)%N -> (x < 2 ^ 64)%N -> sub64 x (f + 1) = (x - f - 1)%N).
  { intros x f Ha Hb. unfold sub64. rewrite (N.mod_small (f + 1)) by lia.
    replace (x + 2 ^ 64 - (f + 1))%N with ((x - f - 1) + 1 * 2 ^ 64)%N by lia.
    rewrite N.mod_add by (apply N.pow_nonzero; discriminate). apply N.mod_small. lia. }
  rewrite S by auto. rewrite wr_ok by (now apply nth_error_lt in H1). cbn [bind].
  rewrite (rd_ok _ d2 i2) by (rewrite nth_error_set_nth_neq; auto). rewrite (rd_ok filt d2 f2 H4). cbn [bind].
  rewrite S by auto. apply wr_ok. rewrite length_set_nth. now apply nth_error_lt in H2.
Qed.

(** A filter as large as the image makes the dimension wrap around to 2^64 - 1. *)
Lemma C48_cross_corr_shape_wraps_refuted_lemma :
  cross_corr_shape 0 1 [3; 5]%N [3; 2]%N = Ok [2 ^ 64 - 1; 2]%N.
Proof. reflexivity. Qed.

(** The values never depend on the filter's data: the image itself is used as the filter. *)
Lemma C48_cross_corr_ignores_filter_refuted_lemma :
  forall (T : Type) (zero : T) (add mul : T -> T -> T) d1 d2 outs ins (img filt1 filt2 dest : list T),
    cross_corr_fwd zero add mul d1 d2 outs ins img filt1 dest =
    cross_corr_fwd zero add mul d1 d2 outs ins img filt2 dest.
Proof. intros. reflexivity. Qed.

(** A 4x4 image with a 2x2 filter reads outside the image. *)
Lemma C48_cross_corr_out_of_bounds_refuted_lemma :
  exists outs, cross_corr_shape 0 1 [4; 4]%N [2; 2]%N = Ok outs /\ outs = [1; 1]%N /\
    cross_corr_fwd 0 Nat.add Nat.mul 0 1 [1; 1] [4; 4] (seq 0 16) (repeat 1 4) [0] = UB.
Proof. eexists. split; [reflexivity|]. split; [reflexivity|]. vm_compute. reflexivity. Qed.

(** For every image and every filter that leave at least one output position along both
    axes, given in increasing order as the default {0, 1} is, evaluating the correlation reads outside the image's buffer. *)
Lemma C48_cross_corr_always_out_of_bounds_refuted_lemma :
  forall (T : Type) (zero : T) (add mul : T -> T -> T) (d1 d2 : nat) (ins : shape) (i1 i2 f1 f2 : nat) (img filt dest : list T),
    is_fully_defined ins = true -> d1 < d2 ->
    nth_error ins d1 = Some i1 -> nth_error ins d2 = Some i2 ->
    1 <= f1 -> 1 <= f2 -> f1 + 1 < i1 -> f2 + 1 < i2 -> length img = n_elems ins ->
    cross_corr_fwd zero add mul d1 d2 (set_nth d2 (i2 - f2 - 1) (set_nth d1 (i1 - f1 - 1) ins)) ins img filt dest = UB.
Proof.
  intros T zero add mul d1 d2 ins i1 i2 f1 f2 img filt dest F Hlt E1 E2 F1 F2 G1 G2 Li. assert (Hne : d1 <> d2) by lia.
  apply is_fully_defined_iff in F. rewrite n_elems_prod in Li by apply F.
  pose proof (nth_error_lt _ _ _ E1) as L1. pose proof (nth_error_lt _ _ _ E2) as L2.
  set (outs := set_nth d2 (i2 - f2 - 1) (set_nth d1 (i1 - f1 - 1) ins)).
  assert (Lo : length outs = length ins) by (unfold outs; now rewrite !length_set_nth).
  assert (N2 : nth d2 outs 0 = i2 - f2 - 1) by (unfold outs; rewrite nth_set_same; [reflexivity|now rewrite length_set_nth]).
  assert (N1 : nth d1 outs 0 = i1 - f1 - 1) by (unfold outs; rewrite nth_set_other by auto; now rewrite nth_set_same).
  assert (Nm : forall m, m <> d1 -> m <> d2 -> nth m ins 0 = nth m outs 0) by (intros m Q1 Q2; unfold outs; now rewrite !nth_set_other by auto).
  assert (Po : Forall (fun d => 0 < d) outs).
  { apply Forall_forall. intros x Hx. apply (In_nth _ _ 0) in Hx. destruct Hx as [m [Hm <-]].
    destruct (Nat.eq_dec m d1) as [->|D1]; [lia|]. destruct (Nat.eq_dec m d2) as [->|D2]; [lia|].
    rewrite <- Nm by auto. apply (proj1 (Forall_forall _ _) (proj2 F)). apply nth_In. lia. }
  assert (Ne : outs <> []) by (intros E; rewrite E in Lo; cbn in Lo; lia).
  unfold cross_corr_fwd. rewrite (rd_ok ins d1 i1 E1), (rd_ok ins d2 i2 E2). cbn [bind].
  rewrite (nth_rd outs d1 0), N1 by lia. cbn [bind]. rewrite (nth_rd outs d2 0), N2 by lia. cbn [bind].
  replace (i1 - (i1 - f1 - 1)) with (f1 + 1) by lia. replace (i2 - (i2 - f2 - 1)) with (f2 + 1) by lia.
  rewrite n_elems_prod by auto. pose proof (prod_pos outs Po) as Pp.
  replace (prod outs) with (S (prod outs - 1)) by lia.
  apply (for_last_ub (S:=list T) (fun _ _ => True)); [exact I| |].
  - intros i d _ _. apply (bind_ok_or_ub _ _ _ _ (wr_ok_or_ub d i zero)). intros d' _.
    rewrite coordinate_from_idx_coords by auto. cbn [bind].
    apply (bind_ok_or_ub (fun st => length (fst st) = length outs)); [|intros a _; right; eauto].
    apply (for_ok_or_ub (fun _ (st : list nat * list T) => length (fst st) = length outs)); [cbn [fst]; apply coords_length|].
    intros j st _ Hst.
    apply (bind_ok_or_ub (fun st => length (fst st) = length outs)).
    + apply (for_ok_or_ub (fun _ (st : list nat * list T) => length (fst st) = length outs)); [exact Hst|].
      intros k [c e] _ Hc. cbn [fst] in Hc.
      rewrite flat_idx_offset; [|intros ->; cbn in *; lia|intros ->; cbn in *; lia]. cbn [bind].
      apply (bind_ok_or_ub _ _ _ _ (rd_ok_or_ub img _)). intros a _.
      apply (bind_ok_or_ub _ _ _ _ (rd_ok_or_ub img _)). intros b _.
      apply (bind_ok_or_ub _ _ _ _ (rd_ok_or_ub e _)). intros acc _.
      apply (bind_ok_or_ub _ _ _ _ (wr_ok_or_ub e _ _)). intros e' _.
      apply (bind_ok_or_ub _ _ _ _ (rd_ok_or_ub c _)). intros y _.
      apply (bind_ok_or_ub _ _ _ _ (wr_ok_or_ub c _ _)). intros c' ->.
      right. eexists. split; [reflexivity|]. cbn [fst]. now rewrite length_set_nth.
    + intros [c e] Hc. cbn [fst] in Hc.
      apply (bind_ok_or_ub _ _ _ _ (rd_ok_or_ub c _)). intros x _.
      apply (bind_ok_or_ub _ _ _ _ (wr_ok_or_ub c _ _)). intros c' ->.
      right. eexists. split; [reflexivity|]. cbn [fst]. now rewrite length_set_nth.
  - intros d _. destruct (wr_ok_or_ub d (prod outs - 1) zero) as [->|[d' [-> _]]]; [reflexivity|]. cbn [bind].
    rewrite coordinate_from_idx_coords by auto. cbn [bind].
    rewrite (corr_last_ub add mul d1 d2 outs ins img (f1 + 1) (f2 + 1)); [reflexivity|auto|lia|lia|lia|auto|lia|lia| | |lia|lia|auto|].
    + rewrite N1. rewrite (nth_error_nth _ _ 0 E1). lia.
    + rewrite N2. rewrite (nth_error_nth _ _ 0 E2). lia.
    + split; [apply coords_length|]. rewrite !coords_last by (auto; lia). split; [lia|]. split; [lia|].
      intros m _ _ Hm. now rewrite coords_last.
Qed.

(** With the axes in decreasing order the reads can stay inside the buffer, but are not the
    window's: the coordinate along the second axis is not reset between rounds, so the last
    round reads the first element of the next row (27 = 9 * 3). Adding keeps the last product
    here and multiplying the image's element, so that the result shows what was read last. *)
Lemma C48_cross_corr_reversed_axes_refuted_lemma :
  exists d, cross_corr_fwd 0 (fun _ y => y) (fun x _ => x) 1 0 [7; 2] [9; 4] (seq 0 36) [1; 1] (repeat 5 14) = Ok d /\ nth 13 d 0 = 27.
Proof. eexists. split; [vm_compute; reflexivity|reflexivity]. Qed.

Lemma C48_nonvacuous_lemma :
  cross_corr_shape 0 1 [5; 9]%N [2; 2]%N = Ok [2; 6]%N /\
  cross_corr_fwd 0 Nat.add Nat.mul 0 1 [2; 6; 2] [5; 9; 2] (seq 0 90) [1; 1; 1; 1] (repeat 0 24) = UB.
Proof. split; vm_compute; reflexivity. Qed.
