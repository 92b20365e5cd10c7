(** Property lemmas about elementwise operations (C23-C26). *)
From Coq Require Import Reals ZArith Lra.
From Verif Require Import Common ShapeModel ShapeSpec ShapeProofs FitModel TransformModel TransformProofs ElemSpec ElemModel NumSpec ElemProofs RealNum.

(** A unary operation: one element per argument element, in place, shape kept (a one-element
    argument gives shape [1]); whatever the destination held before is irrelevant, both for
    the first evaluation and for a later one into the same tensor. *)
Lemma C23_unary_pointwise_lemma :
  forall (T : Type) (fresh : nat -> T) (f : T -> T) (s : shape) (data : list T),
    is_fully_defined s = true -> length data = n_elems s ->
    let outs := if n_elems s =? 1 then [1] else s in
    forward_pass fresh elementary_shaper (transform_fwd f) [(s, data)] None = Ok (outs, map f data) /\
    forall old, length old = n_elems outs ->
      forward_pass fresh elementary_shaper (transform_fwd f) [(s, data)] (Some (outs, old)) = Ok (outs, map f data).
Proof.
  intros T fresh f s data F L outs. split; [apply (unary_ok fresh f (s, data)); now split|].
  intros old Lo. unfold forward_pass. cbn [map fst snd]. rewrite shaper_unary by auto. cbn [bind]. change outs with (ushape s) in *. clear outs.
  rewrite ushape_def, compat_refl by auto. cbn [bind]. rewrite transform_ok; [reflexivity|rewrite ushape_n; auto|rewrite Lo, ushape_n; auto].
Qed.

(** A binary operation on arguments of one layout, or with a one-element argument: the result
    has the shape of the last argument with more than one element, and element i is the
    function of the two elements i, a one-element argument being used for every i. *)
Lemma C23_binary_pointwise_lemma :
  forall (T : Type) (fresh : nat -> T) (f : T -> T -> T) (sa sb : shape) (a b : list T),
    is_fully_defined sa = true -> is_fully_defined sb = true -> length a = n_elems sa -> length b = n_elems sb ->
    length a = 1 \/ length b = 1 \/ same_layout sa sb ->
    let outs := if length b =? 1 then if length a =? 1 then [1] else sa else sb in
    exists d, (forall old, old = None \/ (exists o, old = Some (outs, o) /\ length o = n_elems outs) ->
        forward_pass fresh elementary_shaper (binary_elem f) [(sa, a); (sb, b)] old = Ok (outs, d)) /\
      length d = n_elems outs /\ n_elems outs = Nat.max (length a) (length b) /\
      forall i, i < n_elems outs -> exists x y,
        nth_error a (if length a =? 1 then 0 else i) = Some x /\
        nth_error b (if length b =? 1 then 0 else i) = Some y /\ nth_error d i = Some (f x y).
Proof.
  intros T fresh f sa sb a b Fa Fb La Lb H outs.
  assert (Eo : outs = bshape sa sb) by (unfold outs, bshape, ushape; now rewrite La, Lb).
  assert (H' : n_elems sa = 1 \/ n_elems sb = 1 \/ same_layout sa sb) by (rewrite <- La, <- Lb; exact H).
  destruct (binary_ok fresh f (sa, a) (sb, b)) as [E _]; [now split|now split|]. cbn [fst snd] in E. specialize (E H').
  pose proof (same_layout_n sa sb Fa Fb) as Sn.
  assert (Pa : 0 < length a). { rewrite La. apply is_fully_defined_iff in Fa. rewrite n_elems_prod by apply Fa. apply prod_pos, Fa. }
  assert (Pb : 0 < length b). { rewrite Lb. apply is_fully_defined_iff in Fb. rewrite n_elems_prod by apply Fb. apply prod_pos, Fb. }
  assert (Na : length a = 1 \/ length a = n_elems (bshape sa sb)).
  { unfold bshape. destruct (Nat.eqb_spec (n_elems sb) 1); [rewrite ushape_n; auto|].
    destruct H' as [?|[?|?]]; [lia|lia|]. right. rewrite La. auto. }
  assert (Nb : length b = 1 \/ length b = n_elems (bshape sa sb)).
  { unfold bshape. destruct (Nat.eqb_spec (n_elems sb) 1); [left; lia|right; lia]. }
  exists (map2 f (broadcast (n_elems (bshape sa sb)) a) (broadcast (n_elems (bshape sa sb)) b)).
  rewrite Eo. clear outs Eo. split; [|split; [|split]].
  - intros old [->|[o [-> Lo]]]; [exact E|].
    unfold forward_pass. cbn [map fst snd]. destruct (shaper_binary sa sb Fa Fb) as [S1 _]. rewrite S1 by auto. cbn [bind].
    assert (Fo : is_fully_defined (bshape sa sb) = true) by (unfold bshape; destruct (_ =? _); auto using ushape_def).
    rewrite Fo, compat_refl. cbn [bind].
    pose proof (binary_elem_ok f (sa, a) (sb, b) o (conj Fa La) (conj Fb Lb) H' Lo) as E2. cbn [fst snd] in E2.
    rewrite E2. reflexivity.
  - rewrite map2_length, !broadcast_length by auto. lia.
  - unfold bshape in *. destruct (Nat.eqb_spec (n_elems sb) 1); rewrite ?ushape_n in *; try lia.
  - intros i Hi. destruct a as [|x0 a'] eqn:Ea; [cbn in Pa; lia|]. destruct b as [|y0 b'] eqn:Eb; [cbn in Pb; lia|]. rewrite <- Ea, <- Eb in *.
    exists (nth (if length a =? 1 then 0 else i) a x0), (nth (if length b =? 1 then 0 else i) b y0).
    split; [apply nth_error_nth_lt; destruct (Nat.eqb_spec (length a) 1); lia|].
    split; [apply nth_error_nth_lt; destruct (Nat.eqb_spec (length b) 1); lia|].
    rewrite (map2_nth_error _ _ _ i x0 y0) by (rewrite broadcast_length; auto). now rewrite !broadcast_nth by auto.
Qed.

(** Arguments of different layouts, both with more than one element, throw. *)
Lemma C23_binary_incompatible_lemma :
  forall (T : Type) (fresh : nat -> T) (f : T -> T -> T) (sa sb : shape) (a b : list T) old,
    is_fully_defined sa = true -> is_fully_defined sb = true -> n_elems sa <> 1 -> n_elems sb <> 1 -> ~ same_layout sa sb ->
    forward_pass fresh elementary_shaper (binary_elem f) [(sa, a); (sb, b)] old = Throw.
Proof.
  intros T fresh f sa sb a b old Fa Fb Ha Hb Hs. destruct (shaper_binary sa sb Fa Fb) as [_ S2].
  unfold forward_pass. cbn [map fst]. rewrite S2 by tauto. reflexivity.
Qed.

Lemma C23_nonvacuous_lemma :
  forward_pass (fun _ => 0%Z) elementary_shaper (binary_elem Z.sub) [([2; 2], [5; 6; 7; 8]%Z); ([1], [1%Z])] None = Ok ([2; 2], [4; 5; 6; 7]%Z) /\
  same_layout [2; 3] [1; 2; 3] /\ ~ same_layout [2; 3] [3; 2] /\
  forward_pass (fun _ => 0%Z) elementary_shaper (binary_elem Z.sub) [([2; 3], repeat 1%Z 6); ([3; 2], repeat 1%Z 6)] None = Throw.
Proof.
  split; [reflexivity|]. split; [right; split; [cbn; lia|reflexivity]|]. split; [|reflexivity].
  intros [H|[H _]]; [discriminate|cbn in H; lia].
Qed.

(** ---- C24 ---- *)
Lemma axis_removed_reduced axis s : 1 < length s -> axis_removed axis s = reduced axis s.
Proof.
  intros H. unfold axis_removed, reduced. destruct (Nat.eqb_spec (length s) 1); [lia|]. now rewrite (Nat.eqb_sym axis (length s - 1)).
Qed.

Lemma binary_axial_unfold {T} (f : T -> T -> T) axis (left : bool) outs (r s : shape) (sa sb dest : list T) :
  binary_axial f axis left outs (map fst (if left then [(r, sa); (s, sb)] else [(s, sb); (r, sa)])) (map snd (if left then [(r, sa); (s, sb)] else [(s, sb); (r, sa)])) dest =
  (let agg := if left then f else fun l r => f r l in
   if 1 =? n_elems r then for_ (n_elems outs) (fun i d => x <- rd sa 0 ;; y <- rd sb i ;; wr d i (agg x y)) dest
   else for_ (n_elems outs) (fun i d => axis_idx <- axial_index axis outs r outs i ;; x <- rd sa axis_idx ;; y <- rd sb i ;; wr d i (agg x y)) dest).
Proof. destruct left; reflexivity. Qed.

(** An axial operation with the smaller argument on the left or on the right: for a larger
    argument of rank two or more and a smaller one whose shape is that of the larger with one
    axis taken out (and neither of one element), the result has the larger shape and the
    element at coordinate c combines the larger argument at c with the smaller at c without
    that axis, in the order the arguments were given. Axis 0 needs a first dimension that is
    one or differs from the second (see the finding). *)
Lemma C24_axial_elements_lemma :
  forall (T : Type) (fresh : nat -> T) (f : T -> T -> T) (left : bool) (axis : nat) (s : shape) (small big : list T),
    is_fully_defined s = true -> 1 < length s -> axis < length s ->
    length big = n_elems s -> length small = n_elems (axis_removed axis s) -> 1 < length small ->
    (axis = 0 -> nth 0 s 0 <> nth 1 s 0 \/ nth 0 s 0 = 1) ->
    exists d, forward_pass fresh (binary_axial_shape axis left) (binary_axial f axis left)
        (if left then [(axis_removed axis s, small); (s, big)] else [(s, big); (axis_removed axis s, small)]) None = Ok (s, d) /\
      length d = n_elems s /\
      forall c, in_bounds s c -> exists x y,
        nth_error small (offset (remove_at axis s) (remove_at axis c)) = Some x /\
        nth_error big (offset s c) = Some y /\
        nth_error d (offset s c) = Some (if left then f x y else f y x).
Proof.
  intros T fresh f left axis s small big F Hr Ha Lb Ls Hs H0.
  rewrite axis_removed_reduced in * by auto. pose proof F as D. apply is_fully_defined_iff in D.
  pose proof (reduced_defined axis s D Ha) as Dr. set (r := reduced axis s) in *.
  assert (Fr : is_fully_defined r = true) by now apply is_fully_defined_iff.
  assert (Nr : n_elems r = prod (set_nth axis 1 s)) by (rewrite n_elems_prod by apply Dr; now apply reduced_prod).
  assert (Ns : n_elems r <= n_elems s).
  { rewrite Nr, n_elems_prod by apply D. pose proof (prod_set_nth axis 1 s Ha). pose proof (nth_pos s axis D Ha). nia. }
  assert (Es : binary_axial_shape axis left (if left then [r; s] else [s; r]) = Ok s).
  { unfold binary_axial_shape.
    assert (G : forall l : bool, (if l then r else r) = r) by (intros []; auto).
    assert (Sz : (s0 <- rd (if left then [r; s] else [s; r]) 0 ;; s1 <- rd (if left then [r; s] else [s; r]) 1 ;; Ok (if left then s0 else s1, if left then s1 else s0)) = Ok (r, s)) by (destruct left; reflexivity).
    destruct left; cbn [rd nth_error bind];
    (destruct (Nat.eqb_spec (n_elems r) 1); [lia|]; destruct (Nat.eqb_spec (n_elems s) 1); [lia|];
     assert (E : (if axis =? 0 then match s with [] => UB | _ :: t => Ok t end
               else if axis =? length s - 1 then Ok (removelast s) else wr s axis 1) = Ok r);
     [ unfold r, reduced; destruct (Nat.eqb_spec (length s) 1); [lia|];
       destruct (axis =? 0); [destruct s; [cbn in Hr; lia|reflexivity]|];
       rewrite (Nat.eqb_sym axis); destruct (_ =? axis); [reflexivity|now apply wr_ok]
     | rewrite E; cbn [bind]; rewrite compat_refl; cbn [bind]; now rewrite F ]). }
  set (v := fun i => match nth_error small (offset (remove_at axis s) (remove_at axis (coords s i))), nth_error big i with
                     | Some x, Some y => if left then f x y else f y x | _, _ => fresh 0 end).
  assert (Off : forall i, i < prod s -> offset (remove_at axis s) (remove_at axis (coords s i)) < length small).
  { intros i Hi. rewrite Ls, Nr. rewrite <- offset_remove by (rewrite ?coords_length; auto).
    apply offset_lt. apply in_bounds_nth. rewrite !length_set_nth, coords_length. split; auto.
    intros k Hk. rewrite !nth_set_nth, coords_length. destruct ((axis =? k) && (axis <? length s)); [lia|].
    destruct D as [_ D']. pose proof (coords_in_bounds s i D') as Hin. apply in_bounds_nth in Hin. now apply Hin. }
  exists (map v (seq 0 (n_elems s))). split.
  - apply forward_fresh; auto.
    { destruct left; exact Es. }
    assert (Ef : forall dest, length dest = n_elems s -> for_ (n_elems s) (fun i d =>
        axis_idx <- axial_index axis s r s i ;; x <- rd small axis_idx ;; y <- rd big i ;;
        wr d i ((if left then f else fun l r => f r l) x y)) dest = Ok (map v (seq 0 (n_elems s)))).
    { intros dest Ld. apply for_fill_all; auto. intros i d Hi Ld'. rewrite n_elems_prod in Hi by apply D.
      unfold r. rewrite axial_index_ok by auto. cbn [bind].
      destruct (rd_lt small _ (Off i Hi)) as [x [E1 E2]]. rewrite E2. cbn [bind].
      destruct (rd_lt big i) as [y [E3 E4]]; [rewrite Lb, n_elems_prod by apply D; auto|]. rewrite E4. cbn [bind].
      unfold v. rewrite E1, E3. rewrite wr_ok by (rewrite Ld', n_elems_prod by apply D; auto). destruct left; reflexivity. }
    etransitivity; [apply binary_axial_unfold|]. destruct (Nat.eqb_spec 1 (n_elems r)); [lia|]. apply Ef. now rewrite map_length, seq_length.
  - split; [now rewrite map_length, seq_length|]. intros c Hc.
    pose proof (offset_lt s c Hc) as Ho. pose proof (Off _ Ho) as Os. rewrite coords_offset in Os by auto.
    destruct (rd_lt small _ Os) as [x [E1 _]]. destruct (rd_lt big (offset s c)) as [y [E3 _]]; [rewrite Lb, n_elems_prod by apply D; auto|].
    exists x, y. split; auto. split; auto. rewrite nth_error_map, nth_error_seq by (rewrite n_elems_prod by apply D; auto). cbn [option_map Nat.add].
    unfold v. rewrite coords_offset, E1, E3 by auto. reflexivity.
Qed.

(** With a one-element smaller argument the axis does not matter. *)
Lemma C24_axial_scalar_lemma :
  forall (T : Type) (fresh : nat -> T) (f : T -> T -> T) (left : bool) (axis : nat) (s s1 : shape) (x : T) (big : list T),
    is_fully_defined s = true -> n_elems s1 = 1 -> length big = n_elems s ->
    forward_pass fresh (binary_axial_shape axis left) (binary_axial f axis left)
      (if left then [(s1, [x]); (s, big)] else [(s, big); (s1, [x])]) None
    = Ok (s, map (fun y => if left then f x y else f y x) big).
Proof.
  intros T fresh f left axis s s1 x big F N1 Lb.
  apply forward_fresh; auto.
  { unfold binary_axial_shape. destruct left; cbn [map fst rd nth_error bind]; rewrite N1; reflexivity. }
  assert (Ef : for_ (n_elems s) (fun i d => x <- rd [x] 0 ;; y <- rd big i ;; wr d i ((if left then f else fun l r => f r l) x y))
      (map fresh (seq 0 (n_elems s))) = Ok (map (fun y => if left then f x y else f y x) big)).
  { rewrite (for_fill_all _ (fun i => (fun y => if left then f x y else f y x) (nth i big x))).
    - f_equal. rewrite <- Lb. apply (map_seq_nth (fun y => if left then f x y else f y x)).
    - now rewrite map_length, seq_length.
    - intros i d Hi Ld. cbn [rd nth_error bind]. rewrite (rd_nth big i x) by lia. cbn [bind]. rewrite wr_ok by lia. destruct left; reflexivity. }
  etransitivity; [apply binary_axial_unfold|]. rewrite N1. exact Ef.
Qed.

(** Finding: along axis 0 of a larger argument whose first two dimensions are equal the index
    into the smaller argument is not reduced, and the forward pass reads past its end:
    subtracting the column sums [3] of a [3;3] matrix is undefined behaviour. *)
Lemma C24_axial_square_refuted_lemma :
  forall (T : Type) (fresh : nat -> T) (f : T -> T -> T) (left : bool) (n : nat) (small big : list T),
    2 <= n -> length small = n -> length big = n * n ->
    forward_pass fresh (binary_axial_shape 0 left) (binary_axial f 0 left)
      (if left then [([n], small); ([n; n], big)] else [([n; n], big); ([n], small)]) None = UB.
Proof.
  intros T fresh f left n small big Hn Ls Lb.
  assert (Fd : is_fully_defined [n; n] = true) by (cbn; destruct n; [lia|reflexivity]).
  assert (N1 : n_elems [n] = n) by (cbn; lia). assert (N2 : n_elems [n; n] = n * n) by (cbn; nia).
  assert (Es : binary_axial_shape 0 left (map fst (if left then [([n], small); ([n; n], big)] else [([n; n], big); ([n], small)])) = Ok [n; n]).
  { unfold binary_axial_shape. destruct left; cbn [map fst rd nth_error bind Nat.eqb]; rewrite N1, N2;
    (destruct (Nat.eqb_spec n 1); [lia|]; destruct (Nat.eqb_spec (n * n) 1); [nia|]); cbn [bind]; rewrite compat_refl; cbn [bind]; now rewrite Fd. }
  assert (G : forall args (Nf : forward), binary_axial_shape 0 left (map fst args) = Ok [n; n] ->
      (forall dest : list T, length dest = n * n -> Nf [n; n] (map fst args) (map snd args) dest = UB) ->
      forward_pass fresh (binary_axial_shape 0 left) Nf args None = UB).
  { intros args Nf E1 E2. unfold forward_pass. rewrite E1. cbn [bind]. rewrite Fd, E2; [reflexivity|]. now rewrite map_length, seq_length, N2. }
  apply G; [exact Es|].
  assert (Ef : forall (g : T -> T -> T) (dest : list T), length dest = n * n -> for_ (n * n) (fun i d =>
      axis_idx <- axial_index 0 [n; n] [n] [n; n] i ;; x <- rd small axis_idx ;; y <- rd big i ;; wr d i (g x y)) dest = UB).
  { intros g dest Ld. unfold for_.
    assert (I : forall i, axial_index 0 [n; n] [n] [n; n] i = Ok i).
    { intros i. unfold axial_index. cbn [Nat.eqb rd nth_error bind]. rewrite Nat.eqb_refl. cbn [negb length Nat.leb bind].
      destruct (Nat.eqb_spec n 1); [lia|]. reflexivity. }
    replace (n * n) with (n + S (n * n - n - 1)) by nia.
    destruct (for_inv (fun k (d : list T) => length d = n * n) (fun i d =>
      axis_idx <- axial_index 0 [n; n] [n] [n; n] i ;; x <- rd small axis_idx ;; y <- rd big i ;; wr d i (g x y)) n dest) as [d' [E L']]; auto.
    - intros k d Hk Ld'. rewrite I. cbn [bind]. destruct (rd_lt small k) as [x [_ E1]]; [lia|]. destruct (rd_lt big k) as [y [_ E2]]; [nia|].
      rewrite E1, E2. cbn [bind]. rewrite wr_ok by nia. eexists. split; [reflexivity|]. now rewrite length_set_nth.
    - unfold for_ in E. rewrite forloop_app, E. cbn [bind forloop Nat.add]. rewrite I. cbn [bind].
      unfold rd at 1. rewrite (proj2 (nth_error_None small n)) by lia. reflexivity. }
  intros dest Ld. etransitivity; [apply binary_axial_unfold|]. rewrite N1, N2. destruct (Nat.eqb_spec 1 n); [lia|]. cbv zeta. now apply Ef.
Qed.

(** Finding: a one-element larger argument takes the shape of the smaller one and is read past
    its end. *)
Lemma C24_axial_single_big_refuted_lemma :
  forward_pass (fun _ => 0%Z) (binary_axial_shape 1 true) (binary_axial Z.add 1 true) [([3], [1; 2; 3]%Z); ([1], [5%Z])] None = UB.
Proof. reflexivity. Qed.

(** Finding: an axis that is not below the rank of the larger argument writes outside its
    dimension list instead of being rejected. *)
Lemma C24_axial_axis_out_of_range_refuted_lemma :
  forall (T : Type) (fresh : nat -> T) (f : T -> T -> T) axis (s s1 : shape) (a b : list T),
    length s <= axis -> 0 < axis -> n_elems s1 <> 1 -> n_elems s <> 1 ->
    forward_pass fresh (binary_axial_shape axis true) (binary_axial f axis true) [(s1, a); (s, b)] None = UB.
Proof.
  intros T fresh f axis s s1 a b H1 H2 H3 H4. unfold forward_pass, binary_axial_shape. cbn [map fst rd nth_error bind].
  destruct (Nat.eqb_spec (n_elems s1) 1); [lia|]. destruct (Nat.eqb_spec (n_elems s) 1); [lia|].
  destruct (Nat.eqb_spec axis 0); [lia|]. destruct (Nat.eqb_spec axis (length s - 1)); [lia|].
  unfold wr. destruct (Nat.ltb_spec axis (length s)); [lia|]. reflexivity.
Qed.

Lemma C24_nonvacuous_lemma :
  forward_pass (fun _ => 0%Z) (binary_axial_shape 1 false) (binary_axial Z.sub 1 false)
    [([2; 3], [1; 2; 3; 4; 5; 6]%Z); ([2], [1; 2]%Z)] None = Ok ([2; 3], [0; 0; 2; 2; 4; 4]%Z) /\
  forward_pass (fun _ => 0%Z) (binary_axial_shape 1 true) (binary_axial Z.sub 1 true)
    [([2; 1; 2], [1; 2; 3; 4]%Z); ([2; 2; 2], [1; 2; 3; 4; 5; 6; 7; 8]%Z)] None = Ok ([2; 2; 2], [0; 0; -2; -2; -2; -2; -4; -4]%Z) /\
  axis_removed 1 [2; 3] = [2] /\ axis_removed 1 [2; 2; 2] = [2; 1; 2].
Proof. repeat split. Qed.

(** ---- C25 ---- *)
Section C25.
Context {T : Type} (N : num T) (NL : num_laws N) (fresh : nat -> T).

Lemma const_fwd_lambda op x : op <> UAbs -> const_lambda N op x = meaning N op x.
Proof. intros H. destruct op; try congruence; cbn; auto. unfold clip_order, clip. destruct (n_ltb N hi lo); reflexivity. Qed.
Lemma fwd_lambda_meaning op x : fwd_lambda N op x = meaning N op x.
Proof. destruct op; cbn; auto. unfold clip_order, clip. destruct (n_ltb N hi lo); reflexivity. Qed.

Lemma broadcast_id {A} n (l : list A) : length l = n -> broadcast n l = l.
Proof. intros H. destruct l as [|x [|y l]]; cbn in *; auto. subst n. reflexivity. Qed.
Lemma broadcast_one {A} n (x : A) : broadcast n [x] = repeat x n.
Proof. reflexivity. Qed.
Lemma map_const_repeat {A B} (f : A -> B) (y : B) l : (forall x, In x l -> f x = y) -> map f l = repeat y (length l).
Proof. induction l as [|x l IH]; cbn; intros H; auto. rewrite H by auto. f_equal. apply IH. auto. Qed.
Lemma map_id_on {A} (f : A -> A) l : (forall x, In x l -> f x = x) -> map f l = l.
Proof. induction l as [|x l IH]; cbn; intros H; auto. rewrite H by auto. f_equal. apply IH. auto. Qed.

(** a result that stands for the list [l] of n elements *)
Definition stands (r : res (tens T)) (s : shape) (l : list T) : Prop :=
  exists t, r = Ok t /\ wf t /\ (fst t = s \/ fst t = [1]) /\ broadcast (length l) (snd t) = l.

Lemma stands_same (t : tens T) : wf t -> stands (Ok t) (fst t) (snd t).
Proof. intros H. exists t. split; auto. split; auto. split; auto. now apply broadcast_id. Qed.
Lemma stands_eq r s l l' : l = l' -> stands r s l -> stands r s l'.
Proof. now intros ->. Qed.
Lemma stands_scalar v s n : stands (Ok (const_scalar v)) s (repeat v n).
Proof. exists (const_scalar v). split; auto. split; [split; reflexivity|]. split; auto. cbn. now rewrite repeat_length. Qed.

Lemma wf_map (t : tens T) (f : T -> T) : wf t -> wf (fst t, map f (snd t)).
Proof. intros [H1 H2]. split; cbn; auto. now rewrite map_length. Qed.

Lemma fold_or_node_ok op a : wf (value N a) -> (op = UAbs -> is_const a = false) ->
  stands (fold_or_node N fresh op a) (fst (value N a)) (map (meaning N op) (snd (value N a))).
Proof.
  intros W H. unfold fold_or_node. destruct a as [t|t|t].
  - cbn [value] in *. exists (fst t, map (const_lambda N op) (snd t)). split; auto. split; [now apply wf_map|]. split; auto. cbn [snd].
    rewrite broadcast_id by now rewrite !map_length. apply map_ext. intros x. apply const_fwd_lambda. intros ->. now specialize (H eq_refl).
  - rewrite unary_ok by auto. eexists. split; [reflexivity|]. cbn [fst snd]. destruct W as [W1 W2].
    split; [split; [now apply ushape_def|cbn [fst snd]; rewrite map_length, ushape_n; auto]|].
    split; [unfold ushape; destruct (_ =? 1); auto|].
    rewrite broadcast_id by now rewrite !map_length. apply map_ext. intros x. apply fwd_lambda_meaning.
  - rewrite unary_ok by auto. eexists. split; [reflexivity|]. cbn [fst snd]. destruct W as [W1 W2].
    split; [split; [now apply ushape_def|cbn [fst snd]; rewrite map_length, ushape_n; auto]|].
    split; [unfold ushape; destruct (_ =? 1); auto|].
    rewrite broadcast_id by now rewrite !map_length. apply map_ext. intros x. apply fwd_lambda_meaning.
Qed.

Lemma const_is_true t v : const_is N t v = true -> snd t = [v].
Proof. unfold const_is. destruct (snd t) as [|x [|y l]]; try discriminate. intros H. apply NL in H. now subst. Qed.

Lemma neg_ok a : wf (value N a) ->
  stands (match a with NNeg child => Ok child | _ => fold_or_node N fresh UNeg a end) (fst (value N a)) (map (n_neg N) (snd (value N a))).
Proof.
  intros W. destruct a as [t|t|t]; try (apply (fold_or_node_ok UNeg); auto; discriminate).
  cbn [value fst snd] in *. rewrite map_map, map_id_on by (intros x _; apply (nl_neg_neg N NL)). apply stands_same.
  destruct W as [W1 W2]. split; auto. cbn in W2. now rewrite map_length in W2.
Qed.

Ltac eqb_cases :=
  repeat match goal with
  | |- context [n_eqb N ?x ?y] => let E := fresh "E" in destruct (n_eqb N x y) eqn:E; [apply NL in E; subst|]
  | |- context [const_is N ?t ?v] => let E := fresh "C" in destruct (const_is N t v) eqn:E; [apply const_is_true in E|]
  | |- context [is_const ?a] => destruct (is_const a)
  | _ => progress cbn [andb orb]
  end.

Ltac law := cbn [meaning]; first
  [ apply (nl_add_0_l N NL) | apply (nl_add_0_r N NL) | apply (nl_sub_0_l N NL) | apply (nl_sub_0_r N NL)
  | apply (nl_mul_0_l N NL) | apply (nl_mul_0_r N NL) | apply (nl_mul_1_l N NL) | apply (nl_mul_1_r N NL)
  | apply (nl_mul_m1_l N NL) | apply (nl_mul_m1_r N NL) | apply (nl_div_1_r N NL) | apply (nl_pow_0 N NL) | apply (nl_pow_1 N NL)
  | apply (nl_div_0_l N NL) ].

Lemma build_unary_ok op a : wf (value N a) -> (op = UAbs -> is_const a = false) -> divisors_ok N op (snd (value N a)) ->
  stands (build_unary N fresh op a) (fst (value N a)) (map (meaning N op) (snd (value N a))).
Proof.
  intros W HA HD.
  assert (FN : op <> UAbs -> stands (fold_or_node N fresh op a) (fst (value N a)) (map (meaning N op) (snd (value N a)))).
  { intros H. apply fold_or_node_ok; auto. }
  assert (Id : (forall x, meaning N op x = x) -> stands (Ok (value N a)) (fst (value N a)) (map (meaning N op) (snd (value N a)))).
  { intros H. eapply stands_eq; [|apply stands_same; exact W]. symmetry. now apply map_id_on. }
  assert (Ng : (forall x, meaning N op x = n_neg N x) ->
     stands (match a with NNeg child => Ok child | _ => fold_or_node N fresh UNeg a end) (fst (value N a)) (map (meaning N op) (snd (value N a)))).
  { intros H. eapply stands_eq; [|apply neg_ok; exact W]. apply map_ext. auto. }
  assert (Sc : forall v, (forall x, In x (snd (value N a)) -> meaning N op x = v) ->
     stands (Ok (const_scalar v)) (fst (value N a)) (map (meaning N op) (snd (value N a)))).
  { intros v H. eapply stands_eq; [|apply (stands_scalar v _ (length (snd (value N a))))]. symmetry. now apply map_const_repeat. }
  assert (HZ : forall x, In x (snd (value N a)) -> match op with UDivL _ => x <> n_zero N | UDivR b => b <> n_zero N | _ => True end).
  { destruct op; auto. intros x Hx. cbn in HD. rewrite Forall_forall in HD. now apply HD. }
  destruct op; try (apply fold_or_node_ok; auto; fail); cbn [build_unary divisors_ok] in *;
  eqb_cases; try (apply FN; discriminate); try (apply Id; intros; law); try (apply Ng; intros; first [reflexivity|law]);
  try (match goal with C : snd (value N a) = [n_zero N] |- _ => rewrite C in HD; cbn in HD; try apply Forall_inv in HD end; now contradiction HD);
  try (apply Sc; intros x Hx; specialize (HZ x Hx);
       first [ match goal with C : snd (value N a) = [_] |- _ => solve [rewrite C in Hx; destruct Hx as [<-|[]]; law; auto] end | law; auto ]; fail).
  all: congruence.
Qed.

Lemma map2_repeat_l (f : T -> T -> T) x l : map2 f (repeat x (length l)) l = map (f x) l.
Proof. induction l; cbn; congruence. Qed.
Lemma map2_repeat_r (f : T -> T -> T) x l : map2 f l (repeat x (length l)) = map (fun y => f y x) l.
Proof. induction l; cbn; congruence. Qed.
Lemma map2_diag (f : T -> T -> T) l : map2 f l l = map (fun y => f y y) l.
Proof. induction l; cbn; congruence. Qed.

Lemma wf_one (t : tens T) : wf t -> n_elems (fst t) = 1 -> exists x, snd t = [x].
Proof. intros [_ H] E. rewrite E in H. destruct (snd t) as [|x [|y l]]; try discriminate. eauto. Qed.
Lemma wf_pos (t : tens T) : wf t -> 0 < length (snd t).
Proof. intros [F L]. rewrite L. apply is_fully_defined_iff in F. rewrite n_elems_prod by apply F. apply prod_pos, F. Qed.

Lemma binary_op_ok op same a b :
  wf (value N a) -> wf (value N b) ->
  n_elems (fst (value N a)) = 1 \/ n_elems (fst (value N b)) = 1 \/ same_layout (fst (value N a)) (fst (value N b)) ->
  (same = true -> a = b) -> (op = BDiv -> Forall (fun x => x <> n_zero N) (snd (value N b))) ->
  let n := Nat.max (length (snd (value N a))) (length (snd (value N b))) in
  exists t, binary_op N fresh op same a b = Ok t /\ wf t /\
    broadcast n (snd t) = map2 (bmeaning N op) (broadcast n (snd (value N a))) (broadcast n (snd (value N b))).
Proof.
  intros Wa Wb HL Hs Hd n.
  set (A := value N a) in *. set (B := value N b) in *.
  pose proof (wf_pos A Wa) as Pa. pose proof (wf_pos B Wb) as Pb. pose proof (proj2 Wa) as La. pose proof (proj2 Wb) as Lb.
  assert (Node : exists t, forward_pass fresh elementary_shaper (binary_elem (bop_lambda N op)) [A; B] None = Ok t /\ wf t /\
    broadcast n (snd t) = map2 (bmeaning N op) (broadcast n (snd A)) (broadcast n (snd B))).
  { destruct (binary_ok fresh (bop_lambda N op) A B Wa Wb) as [E _]. rewrite E by auto. eexists. split; [reflexivity|]. cbn [fst snd].
    assert (En : n_elems (bshape (fst A) (fst B)) = n).
    { unfold n, bshape. destruct (Nat.eqb_spec (n_elems (fst B)) 1) as [E1|E1]; [rewrite ushape_n; lia|].
      destruct HL as [H|[H|H]]; try lia. apply same_layout_n in H; [lia|apply Wa|apply Wb]. }
    assert (Lm : forall (u v : list T), (length u = 1 \/ length u = n) -> (length v = 1 \/ length v = n) -> length (map2 (bop_lambda N op) (broadcast n u) (broadcast n v)) = n).
    { intros u v Hu Hv. rewrite map2_length, !broadcast_length by auto. lia. }
    assert (Ls : length (snd A) = 1 \/ length (snd B) = 1 \/ length (snd A) = length (snd B)).
    { destruct HL as [H|[H|H]]; [lia|lia|]. apply same_layout_n in H; [lia|apply Wa|apply Wb]. }
    rewrite En. split.
    - split; cbn [fst snd]; [unfold bshape; destruct (_ =? 1); [apply ushape_def|]; [apply Wa|apply Wb]|]. rewrite En. apply Lm; lia.
    - rewrite broadcast_id by (apply Lm; lia). destruct op; reflexivity. }
  assert (OneA : forall c r, snd A = [c] -> stands r (fst B) (map (bmeaning N op c) (snd B)) -> exists t, r = Ok t /\ wf t /\
    broadcast n (snd t) = map2 (bmeaning N op) (broadcast n (snd A)) (broadcast n (snd B))).
  { intros c r Ec [t [E1 [E2 [_ E3]]]]. exists t. split; auto. split; auto. rewrite map_length in E3.
    assert (En : n = length (snd B)) by (unfold n; rewrite Ec; cbn [length]; lia).
    rewrite En, E3, Ec, broadcast_one, (broadcast_id _ (snd B)) by auto. symmetry. apply map2_repeat_l. }
  assert (OneB : forall c r, snd B = [c] -> stands r (fst A) (map (fun x => bmeaning N op x c) (snd A)) -> exists t, r = Ok t /\ wf t /\
    broadcast n (snd t) = map2 (bmeaning N op) (broadcast n (snd A)) (broadcast n (snd B))).
  { intros c r Ec [t [E1 [E2 [_ E3]]]]. exists t. split; auto. split; auto. rewrite map_length in E3.
    assert (En : n = length (snd A)) by (unfold n; rewrite Ec; cbn [length]; lia).
    rewrite En, E3, Ec, broadcast_one, (broadcast_id _ (snd A)) by auto. symmetry. apply map2_repeat_r. }
  assert (Same : same = true -> forall r, stands r (fst A) (map (fun x => bmeaning N op x x) (snd A)) -> exists t, r = Ok t /\ wf t /\
    broadcast n (snd t) = map2 (bmeaning N op) (broadcast n (snd A)) (broadcast n (snd B))).
  { intros E r [t [E1 [E2 [_ E3]]]]. specialize (Hs E). exists t. split; auto. split; auto. rewrite map_length in E3.
    assert (EB : B = A) by (unfold A, B; now rewrite Hs). rewrite EB.
    assert (En : n = length (snd A)) by (unfold n; rewrite EB; lia). rewrite En, E3, (broadcast_id _ (snd A)) by auto. symmetry. apply map2_diag. }
  assert (Fst : forall (t : tens T) x, snd t = [x] -> first_of t = Ok x) by (intros t x E; unfold first_of; now rewrite E).
  assert (One : forall t : tens T, wf t -> one_elem t = true -> exists x, snd t = [x]).
  { intros t Wt E. apply wf_one; auto. unfold one_elem in E. apply Nat.eqb_eq in E. lia. }
  assert (Un : forall u x, wf (value N x) -> u <> UAbs -> divisors_ok N u (snd (value N x)) ->
      stands (build_unary N fresh u x) (fst (value N x)) (map (meaning N u) (snd (value N x)))).
  { intros u x W1 W2 W3. apply build_unary_ok; auto. congruence. }
  assert (Sc : forall v (f : T -> T) (t : tens T), (forall x, In x (snd t) -> f x = v) -> stands (Ok (const_scalar v)) (fst t) (map f (snd t))).
  { intros v f t H. eapply stands_eq; [|apply (stands_scalar v _ (length (snd t)))]. symmetry. now apply map_const_repeat. }
  assert (Id : forall (f : T -> T) (t : tens T), wf t -> (forall x, f x = x) -> stands (Ok t) (fst t) (map f (snd t))).
  { intros f t W H. eapply stands_eq; [|apply stands_same; exact W]. symmetry. now apply map_id_on. }
  assert (HB : forall x, In x (snd B) -> op = BDiv -> x <> n_zero N).
  { intros x Hx Ho. specialize (Hd Ho). rewrite Forall_forall in Hd. auto. }
  assert (HA : forall x, In x (snd A) -> op = BDiv -> same = true -> x <> n_zero N).
  { intros x Hx Ho Es. apply HB; auto. unfold B. now rewrite <- (Hs Es). }
  unfold binary_op, build_binary. fold A B. clear HL.
  assert (P2 : stands (build_unary N fresh (UPow (n_two N)) a) (fst A) (map (fun x => n_mul N x x) (snd A))).
  { eapply stands_eq; [|apply (Un (UPow (n_two N)) a); [exact Wa|discriminate|exact I]]. apply map_ext. intros x. apply (nl_pow_2 N NL). }
  assert (CA : forall v, const_is N A v = true -> snd A = [v]) by (intros; now apply const_is_true).
  assert (CB : forall v, const_is N B v = true -> snd B = [v]) by (intros; now apply const_is_true).
  destruct op; cbn [bop_lambda bmeaning] in *;
  try (destruct same; [apply Same; auto; first [exact P2 | apply Sc; intros x Hx; first [apply (nl_sub_diag N NL) | apply (nl_div_diag N NL); auto]]|]);
  (destruct (is_const a && const_is N A (n_zero N)) eqn:E1; [apply andb_true_iff in E1; destruct E1 as [_ E1]; apply CA in E1|];
   [|destruct (is_const a && one_elem A) eqn:E2; [apply andb_true_iff in E2; destruct E2 as [_ E2]; apply One in E2; auto; destruct E2 as [c Ec]; rewrite (Fst A c Ec); cbn [bind]|];
     [|destruct (is_const b && const_is N B (n_zero N)) eqn:E3; [apply andb_true_iff in E3; destruct E3 as [_ E3]; apply CB in E3|];
       [|destruct (is_const b && one_elem B) eqn:E4; [apply andb_true_iff in E4; destruct E4 as [_ E4]; apply One in E4; auto; destruct E4 as [c Ec]; rewrite (Fst B c Ec); cbn [bind]|];
         [|exact Node]]]]).
  all: try (apply (OneA c); [exact Ec|]; eapply stands_eq; [|apply Un; [exact Wb|discriminate|first [exact I | exact (Hd eq_refl)]]]; reflexivity).
  all: try (apply (OneB c); [exact Ec|]; eapply stands_eq; [|apply Un; [exact Wa|discriminate|first [exact I | apply (HB c); auto; rewrite Ec; now left]]]; reflexivity).
  all: try (apply (OneA (n_zero N)); [exact E1|]; first [apply Id; [exact Wb|intros x; law] | apply Sc; intros x Hx; solve [law; auto] | eapply stands_eq; [|apply (Un UNeg b); [exact Wb|discriminate|exact I]]; apply map_ext; intros x; symmetry; law]).
  all: try (apply (OneB (n_zero N)); [exact E3|]; first [apply Id; [exact Wa|intros x; law] | apply Sc; intros x Hx; solve [law; auto]]).
  exfalso. apply (HB (n_zero N)); auto. rewrite E3. now left.
Qed.
End C25.

(** Every unary operation, on a constant (folded), on a "neg" node and on any other node
    alike, gives a tensor that stands for the operation's function applied to each element: of
    the argument's size, or a single element that equals all of them. *)
Lemma C25_unary_lemma :
  forall (T : Type) (N : num T), num_laws N -> forall (fresh : nat -> T) (op : uop) (a : node),
    is_fully_defined (fst (value N a)) = true -> length (snd (value N a)) = n_elems (fst (value N a)) ->
    (op = UAbs -> is_const a = false) -> divisors_ok N op (snd (value N a)) ->
    exists s d, build_unary N fresh op a = Ok (s, d) /\ length d = n_elems s /\ (s = fst (value N a) \/ s = [1]) /\
      broadcast (length (snd (value N a))) d = map (meaning N op) (snd (value N a)).
Proof.
  intros T N NL fresh op a F L HA HD. destruct (build_unary_ok N NL fresh op a (conj F L) HA HD) as [[s d] [E1 [[E2 E3] [E4 E5]]]].
  exists s, d. rewrite map_length in E5. cbn [fst snd] in *. auto.
Qed.

(** So folding a constant and evaluating a node of the same value agree. *)
Lemma C25_fold_agrees_lemma :
  forall (T : Type) (N : num T), num_laws N -> forall (fresh : nat -> T) (op : uop) (t : tens T) (a : node),
    op <> UAbs -> value N a = t -> is_fully_defined (fst t) = true -> length (snd t) = n_elems (fst t) -> divisors_ok N op (snd t) ->
    exists r r', build_unary N fresh op (NConst t) = Ok r /\ build_unary N fresh op a = Ok r' /\
      broadcast (length (snd t)) (snd r) = broadcast (length (snd t)) (snd r').
Proof.
  intros T N NL fresh op t a Ho Ev F L HD.
  destruct (build_unary_ok N NL fresh op (NConst t) (conj F L)) as [r [E1 [_ [_ E2]]]]; auto; [congruence|].
  destruct (build_unary_ok N NL fresh op a) as [r' [E1' [_ [_ E2']]]]; rewrite ?Ev; auto; [split; auto|congruence|].
  rewrite Ev in E2'. cbn [value] in E2. exists r, r'. split; auto. split; auto. rewrite map_length in E2, E2'. congruence.
Qed.

(** The same for the four binary operations, whether the arguments are constants, equal, one-
    element or neither. *)
Lemma C25_binary_lemma :
  forall (T : Type) (N : num T), num_laws N -> forall (fresh : nat -> T) (op : bop) (same : bool) (a b : node),
    let '(sa, la) := value N a in let '(sb, lb) := value N b in
    is_fully_defined sa = true -> length la = n_elems sa -> is_fully_defined sb = true -> length lb = n_elems sb ->
    length la = 1 \/ length lb = 1 \/ same_layout sa sb ->
    (same = true -> a = b) -> (op = BDiv -> Forall (fun x => x <> n_zero N) lb) ->
    let n := Nat.max (length la) (length lb) in
    exists s d, binary_op N fresh op same a b = Ok (s, d) /\ length d = n_elems s /\
      broadcast n d = map2 (bmeaning N op) (broadcast n la) (broadcast n lb).
Proof.
  intros T N NL fresh op same a b. destruct (value N a) as [sa la] eqn:Ea. destruct (value N b) as [sb lb] eqn:Eb.
  intros Fa La Fb Lb HL Hs Hd n.
  destruct (binary_op_ok N NL fresh op same a b) as [[s d] [E1 [[_ E2] E3]]]; rewrite ?Ea, ?Eb; cbn [fst snd]; auto; try (split; auto; fail).
  { rewrite <- La, <- Lb. auto. }
  rewrite Ea, Eb in E3. exists s, d. auto.
Qed.

Lemma C25_binary_incompatible_lemma :
  forall (T : Type) (N : num T) (fresh : nat -> T) (op : bop) (a b : node),
    let '(sa, la) := value N a in let '(sb, lb) := value N b in
    is_fully_defined sa = true -> length la = n_elems sa -> is_fully_defined sb = true -> length lb = n_elems sb ->
    length la <> 1 -> length lb <> 1 -> ~ same_layout sa sb ->
    binary_op N fresh op false a b = Throw.
Proof.
  intros T N fresh op a b. destruct (value N a) as [sa la] eqn:Ea. destruct (value N b) as [sb lb] eqn:Eb.
  intros Fa La Fb Lb Ha Hb Hn. unfold binary_op, build_binary. rewrite Ea, Eb.
  assert (C1 : forall v, const_is N (sa, la) v = false) by (intros v; unfold const_is; cbn; destruct la as [|x [|y l]]; auto; cbn in Ha; lia).
  assert (C2 : forall v, const_is N (sb, lb) v = false) by (intros v; unfold const_is; cbn; destruct lb as [|x [|y l]]; auto; cbn in Hb; lia).
  assert (O1 : one_elem (sa, la) = false) by (apply Nat.eqb_neq; cbn [fst]; lia).
  assert (O2 : one_elem (sb, lb) = false) by (apply Nat.eqb_neq; cbn [fst]; lia).
  rewrite C1, C2, O1, O2, !andb_false_r.
  assert (E : forward_pass fresh elementary_shaper (binary_elem (bop_lambda N op)) [(sa, la); (sb, lb)] None = Throw).
  { apply (proj2 (binary_ok fresh (bop_lambda N op) (sa, la) (sb, lb) (conj Fa La) (conj Fb Lb))). cbn [fst]. rewrite <- La, <- Lb. tauto. }
  destruct op; exact E.
Qed.

(** Finding: unary plus ("abs") of a constant is the absolute value, of a node the node itself. *)
Lemma C25_abs_refuted_lemma :
  forall fresh, build_unary Rnum fresh UAbs (NConst ([1], [-1]%R)) = Ok ([1], [1%R]) /\
                build_unary Rnum fresh UAbs (NOther ([1], [-1]%R)) = Ok ([1], [(-1)%R]).
Proof.
  intros fresh. split; [|reflexivity]. unfold build_unary, fold_or_node. cbn. do 3 f_equal. rewrite Rabs_left; lra.
Qed.

(** Finding: multiplying by zero, raising to the power zero, subtracting a node from itself
    and dividing it by itself give a one-element constant, not a tensor of the argument's
    shape. *)
Lemma C25_shape_lost_refuted_lemma :
  forall (T : Type) (N : num T), num_laws N -> forall fresh (t : tens T),
    let a := NOther t in
    build_unary N fresh (UMulL (n_zero N)) a = Ok ([1], [n_zero N]) /\
    build_unary N fresh (UMulR (n_zero N)) a = Ok ([1], [n_zero N]) /\
    build_unary N fresh (UPow (n_zero N)) a = Ok ([1], [n_one N]) /\
    binary_op N fresh BSub true a a = Ok ([1], [n_zero N]) /\
    binary_op N fresh BDiv true a a = Ok ([1], [n_one N]).
Proof.
  intros T N NL fresh t a. assert (Z : n_eqb N (n_zero N) (n_zero N) = true) by now apply NL.
  unfold build_unary. cbn [is_const a]. rewrite Z. repeat split.
Qed.

(** Finding: dividing a node by the scalar zero throws, dividing a constant by it does not. *)
Lemma C25_div_zero_refuted_lemma :
  forall fresh x, x <> 0%R ->
    build_unary Rnum fresh (UDivR 0%R) (NOther ([1], [x])) = Throw /\
    build_unary Rnum fresh (UDivR 0%R) (NConst ([1], [x])) = Ok ([1], [(x / 0)%R]).
Proof.
  intros fresh x Hx. unfold build_unary. cbn [is_const const_is value fst snd n_eqb Rnum n_zero n_one].
  rewrite (proj2 (Reqb_iff 0 0) eq_refl). destruct (Reqb 0 x) eqn:E; [apply Reqb_iff in E; congruence|]. split; reflexivity.
Qed.

Lemma Rnum_laws : num_laws Rnum.
Proof.
  constructor; cbn; intros; try lra.
  - apply Reqb_iff.
  - unfold Rdiv. now apply Rinv_r.
  - change 0%R with (IZR 0). rewrite Rpow_IZR. reflexivity.
  - rewrite (Rpow_IZR x 1). apply pow_1.
  - rewrite (Rpow_IZR x 2). change (powerRZ x 2) with (x ^ 2)%R. ring.
Qed.

Lemma C25_nonvacuous_lemma :
  num_laws Rnum /\
  build_unary Rnum (fun _ => 0%R) (UAddL 2%R) (NOther ([2], [1; 3]%R)) = Ok ([2], [(2 + 1)%R; (2 + 3)%R]) /\
  build_unary Rnum (fun _ => 0%R) (UAddL 2%R) (NConst ([2], [1; 3]%R)) = Ok ([2], [(2 + 1)%R; (2 + 3)%R]) /\
  divisors_ok Rnum (UDivL 1%R) [1; 3]%R.
Proof.
  assert (E : Reqb 2 0 = false) by (destruct (Reqb 2 0) eqn:E; auto; apply Reqb_iff in E; lra).
  split; [exact Rnum_laws|]. unfold build_unary. cbn [n_eqb n_zero Rnum]. rewrite E. split; [reflexivity|]. split; [reflexivity|].
  cbn. constructor; [lra|]. constructor; [lra|constructor].
Qed.

(** ---- C26 ---- *)
(** clip_val: every element stays between the two bounds (in whichever order they are
    given), is unchanged when it already is, and is the nearer bound otherwise; for constants
    and other nodes alike. *)
Lemma C26_clip_val_lemma :
  forall fresh (lo hi : R) (a : node),
    is_fully_defined (fst (value Rnum a)) = true -> length (snd (value Rnum a)) = n_elems (fst (value Rnum a)) ->
    exists s d, build_unary Rnum fresh (UClip lo hi) a = Ok (s, d) /\ length d = length (snd (value Rnum a)) /\
      forall i x, nth_error (snd (value Rnum a)) i = Some x -> exists y, nth_error d i = Some y /\
        (Rmin lo hi <= y <= Rmax lo hi)%R /\
        ((Rmin lo hi <= x <= Rmax lo hi)%R -> y = x) /\
        ((x < Rmin lo hi)%R -> y = Rmin lo hi) /\ ((Rmax lo hi < x)%R -> y = Rmax lo hi).
Proof.
  intros fresh lo hi a F L.
  assert (E : exists s, build_unary Rnum fresh (UClip lo hi) a = Ok (s, map (meaning Rnum (UClip lo hi)) (snd (value Rnum a)))).
  { cbn [build_unary]. unfold fold_or_node. destruct a as [t|t|t].
    - exists (fst t). cbn [value]. do 2 f_equal. apply map_ext. intros x. apply const_fwd_lambda. discriminate.
    - rewrite unary_ok by (split; auto). eexists. do 2 f_equal. apply map_ext. intros x. apply fwd_lambda_meaning.
    - rewrite unary_ok by (split; auto). eexists. do 2 f_equal. apply map_ext. intros x. apply fwd_lambda_meaning. }
  destruct E as [s E]. exists s. eexists. split; [exact E|]. split; [apply map_length|].
  intros i x Hx. exists (meaning Rnum (UClip lo hi) x). split; [now rewrite nth_error_map, Hx|].
  cbn. unfold Rltb. destruct (Rlt_dec hi lo).
  - rewrite Rmin_right, Rmax_left by lra. destruct (Rlt_dec x hi); [lra|]. destruct (Rlt_dec lo x); lra.
  - rewrite Rmin_left, Rmax_right by lra. destruct (Rlt_dec x lo); [lra|]. destruct (Rlt_dec hi x); lra.
Qed.

(** clip_norm of a constant: the squared norm never exceeds the cap, the result is a multiple
    of the argument, and it is the argument itself when its squared norm is within the cap. *)
Lemma C26_clip_norm_const_lemma :
  forall fresh (s : shape) (l : list R) (cap : R), (0 < cap)%R ->
    exists k d, clip_norm Rnum fresh (NConst (s, l)) cap = Ok (s, d) /\
      (0 < k <= 1)%R /\ d = map (fun x => (x * k)%R) l /\ (norm2 d <= cap)%R /\ ((norm2 l <= cap)%R -> d = l).
Proof.
  intros fresh s l cap Hc. unfold clip_norm. cbn [n_ltb n_zero Rnum]. rewrite (proj2 (Rltb_iff 0 cap) Hc). cbn [assert_ bind fst snd].
  rewrite sumsq_norm2. change (Rltb cap (norm2 l)) with (Rltb cap (norm2 l)). destruct (Rltb cap (norm2 l)) eqn:E.
  - apply Rltb_iff in E. exists (cap / norm2 l)%R. eexists. split; [reflexivity|].
    assert (K1 : (0 < cap / norm2 l)%R) by (apply Rdiv_lt_0_compat; lra).
    assert (K2 : (cap / norm2 l <= 1)%R) by (apply Rmult_le_reg_r with (norm2 l); [lra|]; unfold Rdiv; rewrite Rmult_assoc, Rinv_l; lra).
    assert (Em : map (fun x : R => n_div Rnum (n_mul Rnum x cap) (norm2 l)) l = map (fun x => (x * (cap / norm2 l))%R) l).
    { apply map_ext. intros x. cbn. unfold Rdiv. lra. }
    rewrite Em. split; auto. split; auto. split; [|lra]. rewrite norm2_scale.
    assert (Er : (cap / norm2 l * (cap / norm2 l) * norm2 l = cap / norm2 l * cap)%R) by (field; lra). rewrite Er. nra.
  - apply Rltb_false in E. exists 1%R. eexists. split; [reflexivity|]. split; [lra|].
    rewrite map_id. assert (El : l = map (fun x => (x * 1)%R) l) by (symmetry; apply map_id_on; intros; lra). auto.
Qed.

Lemma C26_clip_norm_cap_lemma :
  forall fresh a (cap : R), (cap <= 0)%R -> clip_norm Rnum fresh a cap = Abort.
Proof.
  intros fresh a cap H. unfold clip_norm. cbn [n_ltb n_zero Rnum]. destruct (Rltb 0 cap) eqn:E; [apply Rltb_iff in E; lra|]. reflexivity.
Qed.

(** Finding: the cap is compared with the squared norm, so with a cap below one the norm of
    the result can exceed it. *)
Lemma C26_clip_norm_squared_refuted_lemma :
  forall fresh, clip_norm Rnum fresh (NConst ([1], [(/ 2)%R])) (/ 4)%R = Ok ([1], [(/ 2)%R]) /\ (sqrt (norm2 [/ 2]) > / 4)%R.
Proof.
  intros fresh. split.
  - destruct (C26_clip_norm_const_lemma fresh [1] [(/ 2)%R] (/ 4)%R) as [k [d [E1 [_ [_ [_ E2]]]]]]; [lra|].
    etransitivity; [exact E1|]. rewrite E2; [reflexivity|]. unfold norm2; cbn. lra.
  - replace (norm2 [/ 2])%R with (/ 2 * / 2)%R by (unfold norm2; cbn; lra). rewrite sqrt_square by lra. lra.
Qed.

(** Finding: l2norm of a node looks at the first element only. *)
Lemma C26_l2norm_node_refuted_lemma :
  forall fresh (s : shape) x (l : list R),
    l2norm Rnum fresh (NOther (s, x :: l)) = Ok ([1], [Rabs x]).
Proof.
  intros fresh s x l. unfold l2norm, forward_pass. cbn. rewrite Rplus_0_l. change (x * x)%R with (Rsqr x). now rewrite sqrt_Rsqr_abs.
Qed.

(** Finding: l2norm of a constant is the squared norm: the root is not taken. *)
Lemma C26_l2norm_const_refuted_lemma :
  forall fresh (s : shape) (l : list R), l2norm Rnum fresh (NConst (s, l)) = Ok ([1], [norm2 l]).
Proof. intros fresh s l. cbn [l2norm]. unfold const_scalar. cbn [snd]. now rewrite sumsq_norm2. Qed.

(** Finding: clip_norm of a node always rescales by cap / |first element|: what is already
    within the cap is changed too, and the result's norm can exceed the cap. *)
Lemma C26_clip_norm_node_refuted_lemma :
  forall fresh (s : shape) x (l : list R) cap, (0 < cap)%R -> is_fully_defined s = true -> length (x :: l) = n_elems s -> n_elems s <> 1 ->
    clip_norm Rnum fresh (NOther (s, x :: l)) cap = Ok (s, map (fun y => (y * cap / Rabs x)%R) (x :: l)).
Proof.
  intros fresh s x l cap Hc F L N1. unfold clip_norm. cbn [n_ltb n_zero Rnum]. rewrite (proj2 (Rltb_iff 0 cap) Hc). cbn [assert_ bind].
  rewrite C26_l2norm_node_refuted_lemma. cbn [bind value].
  apply forward_fresh; auto.
  { cbn [map fst]. unfold elementary_shaper. cbn [elementary_loop]. change (n_elems [1] =? 1) with true. cbn [bind].
    destruct (Nat.eqb_spec (n_elems s) 1); [lia|]. replace (is_compatible_with s []) with (Ok true) by (destruct s; reflexivity). cbn [bind]. now rewrite F. }
  unfold clip_norm_fwd. cbn [map snd rd nth_error bind].
  rewrite (for_fill_all _ (fun i => (fun y => (y * cap / Rabs x)%R) (nth i (x :: l) 0%R))).
  - f_equal. rewrite <- L. apply (map_seq_nth (fun y => (y * cap / Rabs x)%R)).
  - now rewrite map_length, seq_length.
  - intros i d Hi Ld. rewrite (rd_nth (x :: l) i 0%R) by lia. cbn [bind]. rewrite wr_ok by lia. reflexivity.
Qed.

Lemma C26_nonvacuous_lemma :
  (exists d, clip_norm Rnum (fun _ => 0%R) (NConst ([2], [3; 4]%R)) 5%R = Ok ([2], d) /\ norm2 d = 1%R) /\
  (exists d, clip_norm Rnum (fun _ => 0%R) (NOther ([2], [1; 1]%R)) 1%R = Ok ([2], d) /\ norm2 d = 2%R) /\
  is_fully_defined [2] = true.
Proof.
  split; [|split; [|reflexivity]].
  - unfold clip_norm. cbn [n_ltb n_zero Rnum]. rewrite (proj2 (Rltb_iff 0 5)) by lra. cbn [assert_ bind]. rewrite sumsq_norm2.
    assert (E : norm2 [3; 4]%R = 25%R) by (unfold norm2; cbn; lra). cbn [snd]. rewrite E. rewrite (proj2 (Rltb_iff 5 25)) by lra.
    eexists. split; [reflexivity|]. unfold norm2. cbn. lra.
  - rewrite C26_clip_norm_node_refuted_lemma; try lra; try reflexivity; [|cbn; lia]. eexists. split; [reflexivity|].
    rewrite Rabs_R1. unfold norm2. cbn. lra.
Qed.
