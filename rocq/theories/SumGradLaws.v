(** C66: gradients through sums along axes that are added. *)
From Coq Require Import Reals Lra Lia.
From Verif Require Import Common ShapeModel ShapeSpec ShapeProofs TransformSpec TransformModel TransformProofs TransformLaws MatmulSpec MatmulModel ElemSpec ElemModel ElemProofs CseModel NumSpec RealNum ElemLaws GradModel GradSpec GradProofs GradLaws NetSpec NetProofs NetMlpProofs NetLaws GroupModel GroupProofs CoordSum ShapeGradSpec ShapeGradLaws.
Local Open Scope R_scope.
From Verif Require RbmTrainProofs.
From Verif Require LeafLaws ShapeLaws.

Section P.
Context (fresh : nat -> R) (use : bool) (of_nat : nat -> R) (gsame : @gexpr R -> @gexpr R -> bool).
Notation gev := (geval Rnum fresh use of_nat).
Notation gd := (gderive Rnum fresh use of_nat gsame).

(** the shape of reduce_sum along axis i *)
Definition sum_shape (i : nat) (s : shape) : shape := if (i <? length s)%nat then reduced i s else s.
Lemma sum_shape_def i s : is_fully_defined s = true -> is_fully_defined (sum_shape i s) = true.
Proof.
  intros F. unfold sum_shape. destruct (Nat.ltb_spec i (length s)) as [H|H]; [|exact F]. apply is_fully_defined_iff. apply reduced_defined; auto. now apply is_fully_defined_iff.
Qed.
Lemma sum_full env a s l i : is_fully_defined s = true -> gev env a = Ok (s, l) -> length l = n_elems s ->
  exists d, gev env (GSum (Some i) a) = Ok (sum_shape i s, d) /\ length d = n_elems (sum_shape i s) /\ fold_right Rplus 0 d = fold_right Rplus 0 l.
Proof.
  intros F E L. pose proof (sum_value fresh use of_nat env a s l i F E L) as T. pose proof (sum_shape_def i s F) as Fo. unfold sum_shape in *.
  assert (G : gev env (GSum (Some i) a) = forward_pass fresh (shaper1 (compress_shape i)) (forward1 (compress_fwd (n_add Rnum) i)) [(s, l)] None) by (cbn [geval]; rewrite E; reflexivity).
  destruct (Nat.ltb_spec i (length s)) as [Hi|Hi].
  - assert (S1 : compress_shape i s = Ok (reduced i s)) by (apply compress_shape_reduced; [now apply is_fully_defined_iff|exact Hi]).
    destruct (C18_compress_folds_axis_lemma R Rplus 0 s (reduced i s) i l (map fresh (seq 0 (n_elems (reduced i s)))) F Hi S1 L ltac:(now rewrite map_length, seq_length)) as (d & D1 & D2 & _).
    assert (X : forward_pass fresh (shaper1 (compress_shape i)) (forward1 (compress_fwd (n_add Rnum) i)) [(s, l)] None = Ok (reduced i s, d)).
    { apply forward_fresh; [exact S1|exact Fo|]. cbn [map fst snd]. unfold forward1. cbn [rd nth_error bind]. exact D1. }
    rewrite <- G in X. rewrite X in T. exists d. auto.
  - assert (X : forward_pass fresh (shaper1 (compress_shape i)) (forward1 (compress_fwd (n_add Rnum) i)) [(s, l)] None = Ok (s, l)).
    { apply forward_fresh; [exact (proj1 (C18_reduced_shape_lemma s i F) Hi)|exact F|].
      cbn [map fst snd]. unfold forward1. cbn [rd nth_error bind]. apply C18_compress_beyond_rank_copies_lemma; auto. now rewrite map_length, seq_length. }
    rewrite <- G in X. rewrite X in T. exists l. auto.
Qed.

(** value of the sum of two sums *)
Lemma add_value env a b s la lb i j : is_fully_defined s = true -> gev env a = Ok (s, la) -> length la = n_elems s -> gev env b = Ok (s, lb) -> length lb = n_elems s ->
  sum_shape i s = sum_shape j s ->
  total (gev env (GBin BAdd (GSum (Some i) a) (GSum (Some j) b))) = fold_right Rplus 0 la + fold_right Rplus 0 lb.
Proof.
  intros F Ea La Eb Lb Es. destruct (sum_full env a s la i F Ea La) as (da & A1 & A2 & A3). destruct (sum_full env b s lb j F Eb Lb) as (db & B1 & B2 & B3).
  change (gev env (GBin BAdd (GSum (Some i) a) (GSum (Some j) b))) with (ta <- gev env (GSum (Some i) a) ;; tb <- gev env (GSum (Some j) b) ;; sem Rnum fresh use of_nat (KBin BAdd) [ta; tb]).
  rewrite A1, B1, <- Es. cbn [bind sem]. rewrite <- Es in B2. set (o := sum_shape i s) in *. pose proof (sum_shape_def i s F) as Fo. fold o in Fo.
  destruct (bin_gen fresh o (bop_lambda Rnum BAdd) (o, da) (o, db)) as (u & E & _ & Lu & _ & Hu); [split; [exact Fo|split; [exact A2|now left]]|split; [exact Fo|split; [exact B2|now left]]|].
  transitivity (total (Ok u)); [apply (f_equal total); exact E|].
  cbn [total]. rewrite <- A3, <- B3, !sum_list, (Lu A2), A2, B2, <- sumR_plus. apply sumR_ext. intros k Hk. specialize (Hu k Hk).
  rewrite (RbmTrainProofs.at_nth' u k _ (Lu A2) Hk), (RbmTrainProofs.at_nth' (o, da) k _ A2 Hk), (RbmTrainProofs.at_nth' (o, db) k _ B2 Hk) in Hu. exact Hu.
Qed.

Context (gsame_ok : forall a b, gsame a b = true -> a = b).
(** what derive builds and the derivative *)
Lemma both s env w e1 e2 i j : proper s env w e1 -> proper s env w e2 -> sum_shape i s = sum_shape j s ->
  exists g1 g2 t1 t2, gd env w (inj e1) = Ok (inj g1) /\ gd env w (inj e2) = Ok (inj g2) /\
    gev env (inj g1) = Ok t1 /\ gev env (inj g2) = Ok t2 /\ fits s t1 /\ fits s t2 /\
    gd env w (GBin BAdd (GSum (Some i) (inj e1)) (GSum (Some j) (inj e2))) = Ok (if (i =? j)%nat then GAx BAdd false i (GGrp i (inj g1)) (GGrp j (inj g2)) else GBin BAdd (GGrp i (inj g1)) (GGrp j (inj g2))) /\
    forall k, (k < n_elems s)%nat -> derivable_pt_lim (fun x => total (gev (set_elem env w k x) (GBin BAdd (GSum (Some i) (inj e1)) (GSum (Some j) (inj e2))))) (at_ (env w) k) (at_ t1 k + at_ t2 k).
Proof.
  intros P1 P2 Es. destruct (base fresh use of_nat gsame gsame_ok s env w e1 P1) as (g1 & t1 & I1 & D1 & V1 & F1 & Q1 & L1).
  destruct (base fresh use of_nat gsame gsame_ok s env w e2 P2) as (g2 & t2 & I2 & D2 & V2 & F2 & Q2 & L2).
  pose proof P1 as (F & _ & _ & Hw1 & _). pose proof P2 as (_ & _ & _ & Hw2 & _).
  exists g1, g2, t1, t2. split; [exact D1|]. split; [exact D2|]. split; [now rewrite geval_inj|]. split; [now rewrite geval_inj|]. split; [exact F1|]. split; [exact F2|]. split.
  - unfold gderive, gderive_of. cbn [GroupModel.ginfo]. rewrite I1, I2. cbn [fst snd ginherit gterminal bind gleaf]. rewrite !leaf_inj, Hw1, Hw2. cbn [orb bind]. unfold gback2, gbinary. cbn [grouping]. destruct (i =? j)%nat; reflexivity.
  - intros k Hk. eapply lim_ext; [|apply derivable_pt_lim_plus; [apply (L1 k Hk)|apply (L2 k Hk)]]. intros x. unfold plus_fct. cbv beta.
    destruct (Q1 k x) as (l1 & X1 & Y1). destruct (Q2 k x) as (l2 & X2 & Y2). rewrite (add_value _ _ _ s l1 l2 i j F X1 Y1 X2 Y2 Es), X1, X2. reflexivity.
Qed.
Lemma grp_value env i a t : gev env a = Ok t -> wf t -> gev env (GGrp i a) = Ok (ushape (fst t), snd t).
Proof. intros E W. cbn [geval]. rewrite E. cbn [bind sem]. etransitivity; [apply unary_ok; exact W|]. now rewrite map_id. Qed.
Lemma ushape_fits s (t : tens R) : fits s t -> fits s (ushape (fst t), snd t).
Proof.
  intros (F1 & F2 & F3). split; [now apply ushape_def|]. cbn [fst snd]. rewrite ushape_n. split; [exact F2|].
  destruct F3 as [F3|F3]; [|now right]. unfold ushape. destruct (Nat.eqb_spec (n_elems (fst t)) 1); [now right|now left].
Qed.
Lemma ushape_full s : n_elems s <> 1%nat -> ushape s = s.
Proof. intros H. unfold ushape. destruct (Nat.eqb_spec (n_elems s) 1); [contradiction|reflexivity]. Qed.
End P.
Section V.
Context (fresh : nat -> R).
Notation f := (n_add Rnum).
Definition ax (i : nat) (ta tb : tens R) : res (tens R) := forward_pass fresh (binary_axial_shape i false) (binary_axial f i false) [ta; tb] None.

Lemma index_same i s k : (i < length s)%nat -> axial_index i s s s k = Ok k.
Proof.
  intros Hi. unfold axial_index. destruct (rd_lt s i Hi) as (x & _ & E).
  assert (X : (if i =? 0 then x0 <- rd s i ;; y <- rd s i ;; Ok (negb (x0 =? y)) else Ok false)%nat = Ok false).
  { destruct (i =? 0)%nat; [|reflexivity]. rewrite E. cbn [bind]. now rewrite Nat.eqb_refl. }
  rewrite X. cbn [bind]. destruct (Nat.leb_spec (length s) i); [lia|]. rewrite E. cbn [bind].
  destruct (Nat.eqb_spec x 1) as [->|]; cbn [bind]; reflexivity.
Qed.
Lemma drop1_snoc r : drop1 (r ++ [1%nat]) = match drop1 r with [] => [] | l => l ++ [1%nat] end.
Proof.
  induction r as [|x r IH]; [reflexivity|]. destruct x as [|[|x]]; try reflexivity. exact IH.
Qed.
Lemma unpad_snoc r : unpad (r ++ [1%nat]) = unpad r.
Proof. unfold unpad. rewrite drop1_snoc. destruct (drop1 r) as [|y l]; [reflexivity|]. now rewrite rev_app_distr. Qed.
Lemma shape_eq i s : is_fully_defined s = true -> n_elems s <> 1%nat -> (i < length s)%nat ->
  binary_axial_shape i false [s; s] = if (length s =? 1)%nat || (nth i s 0%nat =? 1)%nat then Ok s else Throw.
Proof.
  intros F N1 Hi. pose proof F as D. apply is_fully_defined_iff in D. unfold binary_axial_shape. cbn [rd nth_error bind]. destruct (Nat.eqb_spec (n_elems s) 1); [contradiction|].
  destruct (Nat.eqb_spec (length s) 1) as [L|L].
  - destruct s as [|x [|y s]]; cbn in L, Hi; try lia. assert (i = 0%nat) as -> by lia. cbn [Nat.eqb bind orb]. rewrite (proj2 (compat_undefined [x])). cbn [bind]. now rewrite F.
  - assert (E : (if i =? 0 then match s with [] => UB | _ :: t => Ok t end else if i =? length s - 1 then Ok (removelast s) else wr s i 1)%nat = Ok (reduced i s)).
    { unfold reduced. destruct (Nat.eqb_spec (length s) 1); [lia|]. destruct (Nat.eqb_spec i 0); [destruct s; [cbn in Hi; lia|reflexivity]|].
      rewrite (Nat.eqb_sym i). destruct (_ =? i)%nat; [reflexivity|]. now apply wr_ok. }
    rewrite E. cbn [bind orb]. pose proof (reduced_defined i s D Hi) as Dr. assert (Fr : is_fully_defined (reduced i s) = true) by now apply is_fully_defined_iff.
    assert (Np : n_elems (reduced i s) = prod (set_nth i 1%nat s)) by (rewrite n_elems_prod by apply Dr; now apply reduced_prod).
    pose proof (prod_set_nth i 1 s Hi) as Ps. pose proof (nth_pos s i D Hi) as Pp.
    destruct (ShapeLaws.C04_compatible_defined_shapes_lemma s (reduced i s) F Fr) as [C1 C2].
    destruct (compat_total s (reduced i s)) as (c & Ec). rewrite Ec in C1, C2. rewrite Ec. cbn [bind].
    destruct (Nat.eqb_spec (nth i s 0%nat) 1) as [Hn|Hn].
    + assert (Ok c = Ok true) as [=->]; [|now rewrite F]. apply C1. unfold reduced. destruct (Nat.eqb_spec (length s) 1); [lia|].
      destruct (Nat.eqb_spec i 0) as [->|I0].
      { right. destruct s as [|x r]; [cbn in Hi; lia|]. cbn [nth] in Hn. subst x. cbn [tl length]. split; [lia|reflexivity]. }
      destruct (Nat.eqb_spec (length s - 1) i) as [Ei|Ei].
      { right. destruct (exists_last (l := s)) as (r & x & ->); [destruct s; cbn in Hi; [lia|discriminate]|].
        rewrite app_length in *. cbn [length] in *.
        assert (i = length r) as -> by lia. rewrite nth_middle in Hn. subst x. rewrite removelast_last, unpad_snoc. split; [rewrite ?app_length; cbn [length]; lia|reflexivity]. }
      left. split; [now rewrite length_set_nth|]. symmetry. apply LeafLaws.set_nth_same. rewrite <- Hn. now apply nth_error_nth'.
    + destruct c; [|reflexivity]. exfalso. specialize (C2 eq_refl). rewrite Np, (n_elems_prod s) in C2 by apply D. pose proof (n_elems_pos s D) as Q. rewrite n_elems_prod in Q by apply D. rewrite <- C2 in Ps. assert (nth i s 0 = 1)%nat by nia. contradiction.
Qed.
Lemma ax_single i ta tb : fst ta <> [] -> is_fully_defined (fst ta) = true -> length (snd ta) = n_elems (fst ta) -> n_elems (fst tb) = 1%nat -> length (snd tb) = 1%nat ->
  ax i ta tb = Ok (fst ta, map (fun x => x + at_ tb 0) (snd ta)).
Proof.
  intros Hn F La N1 L1. destruct ta as [s da], tb as [o db]. cbn [fst snd] in *. destruct db as [|y [|]]; cbn in L1; try discriminate.
  unfold ax. etransitivity; [apply (C24_axial_scalar_lemma R fresh f false i s o y da); auto|]. reflexivity.
Qed.
Lemma ax_full i s da db : is_fully_defined s = true -> n_elems s <> 1%nat -> (i < length s)%nat -> length da = n_elems s -> length db = n_elems s ->
  ax i (s, da) (s, db) = if (length s =? 1)%nat || (nth i s 0%nat =? 1)%nat then Ok (s, map (fun k => nth k da 0 + nth k db 0) (seq 0 (n_elems s))) else Throw.
Proof.
  intros F N1 Hi La Lb. unfold ax. destruct ((length s =? 1)%nat || (nth i s 0%nat =? 1)%nat) eqn:E.
  - apply forward_fresh; [change (binary_axial_shape i false [s; s] = Ok s); rewrite shape_eq by auto; now rewrite E|exact F|]. unfold binary_axial. cbn [map fst snd length assert_]. change (2 =? 2)%nat with true. change (rd [s; s] 1) with (Ok s). change (rd [da; db] 1) with (Ok db). change (rd [da; db] ((1 + 1) mod 2)) with (Ok da). cbn [assert_ bind].
    destruct (Nat.eqb_spec 1 (n_elems s)) as [B|B]; [congruence|]. apply for_fill_all; [now rewrite map_length, seq_length|]. intros k d Hk Ld.
    rewrite index_same by exact Hi. cbn [bind]. destruct (rd_lt db k ltac:(lia)) as (x & Ex & Rx). destruct (rd_lt da k ltac:(lia)) as (y & Ey & Ry).
    rewrite Rx, Ry. cbn [bind]. rewrite (nth_error_nth _ _ _ Ex : nth k db 0 = x), (nth_error_nth _ _ _ Ey : nth k da 0 = y). apply wr_ok. lia.
  - unfold forward_pass. cbn [map fst]. rewrite shape_eq by auto. now rewrite E.
Qed.
Lemma index_out s i k : is_fully_defined s = true -> (length s <= i)%nat -> axial_index i s s s k = UB.
Proof.
  intros F Hi. apply is_fully_defined_iff in F. destruct F as [Fn Fp]. assert (0 < length s)%nat by (destruct s; [congruence|cbn; lia]). unfold axial_index.
  destruct (Nat.eqb_spec i 0); [lia|]. cbn [bind]. destruct (Nat.leb_spec (length s) i); [|lia]. cbn [bind].
  rewrite coordinate_from_idx_coords by exact Fp. cbn [bind]. unfold wr. rewrite coords_length. destruct (Nat.ltb_spec i (length s)); [lia|reflexivity].
Qed.
Lemma pass_ub shaper (Nf : @forward R) args s : shaper (map fst args) = Ok s -> is_fully_defined s = true ->
  Nf s (map fst args) (map snd args) (map fresh (seq 0 (n_elems s))) = UB -> forward_pass fresh shaper Nf args None = UB.
Proof. intros E F H. unfold forward_pass. rewrite E. cbn [bind]. now rewrite F, H. Qed.
Lemma ax_ub i s o y db : is_fully_defined s = true -> n_elems s <> 1%nat -> length db = n_elems s -> n_elems o = 1%nat -> ax i (o, [y]) (s, db) = UB.
Proof.
  intros F N1 Lb No. pose proof (n_elems_pos s (proj1 (is_fully_defined_iff s) F)) as Np. apply (pass_ub _ _ _ s); [|exact F|].
  - unfold binary_axial_shape. cbn [map fst rd nth_error bind]. destruct (Nat.eqb_spec (n_elems s) 1); [contradiction|]. now rewrite No.
  - unfold binary_axial. cbn [map fst snd length assert_]. change (2 =? 2)%nat with true. change (rd [o; s] 1) with (Ok s). change (rd [[y]; db] 1) with (Ok db). change (rd [[y]; db] ((1 + 1) mod 2)) with (Ok [y]). cbn [assert_ bind].
    destruct (Nat.eqb_spec 1 (n_elems s)) as [B|B]; [congruence|]. destruct (Nat.leb_spec (length s) i) as [Hi|Hi].
    + eapply (for_exit _ _ 0 _ _ UB); [exact Np|reflexivity| |discriminate]. now rewrite index_out.
    + destruct (rd_lt db 0 ltac:(lia)) as (x & _ & Rx). destruct (rd_lt db 1 ltac:(lia)) as (z & _ & Rz).
      eapply (for_exit _ _ 1 _ _ UB); [lia| | |discriminate].
      * unfold for_. cbn [forloop]. rewrite index_same by exact Hi. cbn [bind]. rewrite Rx. cbn [bind rd nth_error]. rewrite wr_ok by (rewrite map_length, seq_length; exact Np). reflexivity.
      * rewrite index_same by exact Hi. cbn [bind]. rewrite Rz. reflexivity.
Qed.
Lemma ax_out i s da db : is_fully_defined s = true -> n_elems s <> 1%nat -> length da = n_elems s -> (length s <= i)%nat -> ax i (s, da) (s, db) = UB.
Proof.
  intros F N1 La Hi. pose proof (proj1 (is_fully_defined_iff s) F) as [Fn _]. assert (0 < length s)%nat by (destruct s; [congruence|cbn; lia]).
  unfold ax, forward_pass. cbn [map fst]. unfold binary_axial_shape. cbn [rd nth_error bind]. destruct (Nat.eqb_spec (n_elems s) 1); [contradiction|].
  destruct (Nat.eqb_spec i 0); [lia|]. destruct (Nat.eqb_spec i (length s - 1)); [lia|]. unfold wr. destruct (Nat.ltb_spec i (length s)); [lia|]. reflexivity.
Qed.
End V.

(** ---- C66 ---- *)

(** the gradient of a node at variable w has the variable's layout and its elements are the
    derivatives of the sum of the node's elements *)
Definition right fresh use (s : shape) (env : nat -> tens R) (w : nat) (x : @gexpr R) (v : res (tens R)) : Prop :=
  exists t, v = Ok t /\ fits s t /\
    forall k, (k < n_elems s)%nat -> derivable_pt_lim (fun r => total (geval Rnum fresh use INR (set_elem env w k r) x)) (at_ (env w) k) (at_ t k).

(** Two sums along different axes whose results have the same shape: the gradient of their sum
    is right. *)
Lemma C66_other_axes_lemma :
  forall fresh use gsame, (forall a b : @gexpr R, gsame a b = true -> a = b) ->
  forall (s : shape) (env : nat -> tens R) (w : nat) (a b : expr) (i j : nat),
    proper s env w a -> proper s env w b -> i <> j -> (i < length s)%nat -> (j < length s)%nat -> axis_removed i s = axis_removed j s ->
    exists x g, gbinary Rnum gsame BAdd (GSum (Some i) (inj a)) (GSum (Some j) (inj b)) = Ok x /\
      gderive Rnum fresh use INR gsame env w x = Ok g /\ right fresh use s env w x (geval Rnum fresh use INR env g).
Proof.
  intros fresh use gsame Hs s env w a b i j P1 P2 Ne Hi Hj Es.
  assert (Er : sum_shape i s = sum_shape j s).
  { unfold sum_shape. destruct (Nat.ltb_spec i (length s)); [|lia]. destruct (Nat.ltb_spec j (length s)); [|lia].
    rewrite <- !axis_removed_reduced by lia. exact Es. }
  destruct (both fresh use INR gsame Hs s env w a b i j P1 P2 Er) as (g1 & g2 & t1 & t2 & D1 & D2 & V1 & V2 & F1 & F2 & D & L).
  destruct (Nat.eqb_spec i j) as [|_]; [contradiction|].
  exists (GBin BAdd (GSum (Some i) (inj a)) (GSum (Some j) (inj b))), (GBin BAdd (GGrp i (inj g1)) (GGrp j (inj g2))). split; [reflexivity|]. split; [exact D|].
  pose proof (grp_value fresh use INR env i _ _ V1 (fits_wf _ _ F1)) as W1. pose proof (grp_value fresh use INR env j _ _ V2 (fits_wf _ _ F2)) as W2.
  apply ushape_fits in F1 as G1. apply ushape_fits in F2 as G2.
  destruct (bin_gen fresh s (bop_lambda Rnum BAdd) _ _ G1 G2) as (u & E & Fu & _ & Su & Hu).
  exists u. split; [|split].
  - transitivity (ta <- geval Rnum fresh use INR env (GGrp i (inj g1)) ;; tb <- geval Rnum fresh use INR env (GGrp j (inj g2)) ;; sem Rnum fresh use INR (KBin BAdd) [ta; tb]); [reflexivity|].
    rewrite W1, W2. cbn [bind sem]. exact E.
  - exact Fu.
  - intros k Hk. specialize (Hu k Hk). eapply lim_val; [|exact (L k Hk)]. rewrite Hu. reflexivity.
Qed.

(** Two sums along the same axis. With g1, g2 the gradients of the two summed expressions, the
    gradient of their sum is right if g2 has a single element or the axis has extent one (or is
    the only one).
    Findings: the gradients carry the mark that makes operator+ take its second argument for a
    tensor without the axis, although here both have it. If both gradients have all elements
    the evaluation throws, unless the axis has extent one; if the first has a single element
    and the second all, it reads beyond the first; an axis not below the rank (for which
    reduce_sum is the identity) leads to a write outside a vector. *)
Lemma C66_same_axis_lemma :
  forall fresh use gsame, (forall a b : @gexpr R, gsame a b = true -> a = b) ->
  forall (s : shape) (env : nat -> tens R) (w : nat) (a b : expr) (i : nat),
    proper s env w a -> proper s env w b ->
    exists x g g1 g2 t1 t2, gbinary Rnum gsame BAdd (GSum (Some i) (inj a)) (GSum (Some i) (inj b)) = Ok x /\
      gderive Rnum fresh use INR gsame env w x = Ok g /\
      gderive Rnum fresh use INR gsame env w (inj a) = Ok g1 /\ geval Rnum fresh use INR env g1 = Ok t1 /\
      gderive Rnum fresh use INR gsame env w (inj b) = Ok g2 /\ geval Rnum fresh use INR env g2 = Ok t2 /\
      (length (snd t1) = n_elems s \/ length (snd t1) = 1%nat) /\ (length (snd t2) = n_elems s \/ length (snd t2) = 1%nat) /\
      (length (snd t2) = 1%nat -> right fresh use s env w x (geval Rnum fresh use INR env g)) /\
      (length (snd t2) = n_elems s -> length (snd t1) = n_elems s -> (i < length s)%nat -> length s = 1%nat \/ nth i s 0%nat = 1%nat ->
         right fresh use s env w x (geval Rnum fresh use INR env g)) /\
      (length (snd t2) = n_elems s -> length (snd t1) = n_elems s -> (i < length s)%nat -> length s <> 1%nat -> nth i s 0%nat <> 1%nat ->
         geval Rnum fresh use INR env g = Throw) /\
      (length (snd t2) = n_elems s -> length (snd t1) = 1%nat \/ (length s <= i)%nat -> geval Rnum fresh use INR env g = UB).
Proof.
  intros fresh use gsame Hs s env w a b i P1 P2.
  destruct (both fresh use INR gsame Hs s env w a b i i P1 P2 eq_refl) as (g1 & g2 & t1 & t2 & D1 & D2 & V1 & V2 & F1 & F2 & D & L).
  rewrite Nat.eqb_refl in D. pose proof P1 as (F & N1 & _).
  exists (GBin BAdd (GSum (Some i) (inj a)) (GSum (Some i) (inj b))), (GAx BAdd false i (GGrp i (inj g1)) (GGrp i (inj g2))), (inj g1), (inj g2), t1, t2.
  split; [reflexivity|]. split; [exact D|]. split; [exact D1|]. split; [exact V1|]. split; [exact D2|]. split; [exact V2|].
  pose proof F1 as (A1 & A2 & A3). pose proof F2 as (B1 & B2 & B3).
  split; [rewrite A2; destruct A3 as [->|A3]; auto|]. split; [rewrite B2; destruct B3 as [->|B3]; auto|].
  assert (G : geval Rnum fresh use INR env (GAx BAdd false i (GGrp i (inj g1)) (GGrp i (inj g2))) = ax fresh i (ushape (fst t1), snd t1) (ushape (fst t2), snd t2)).
  { transitivity (ta <- geval Rnum fresh use INR env (GGrp i (inj g1)) ;; tb <- geval Rnum fresh use INR env (GGrp i (inj g2)) ;; sem Rnum fresh use INR (KAx BAdd false i) [ta; tb]); [reflexivity|].
    rewrite (grp_value fresh use INR env i _ _ V1 (fits_wf _ _ F1)), (grp_value fresh use INR env i _ _ V2 (fits_wf _ _ F2)). reflexivity. }
  rewrite G. clear G. destruct t1 as [s1 l1], t2 as [s2 l2]. cbn [fst snd] in *.
  assert (Full : forall s' (l' : list R), length l' = n_elems s' -> s' = s \/ n_elems s' = 1%nat -> length l' = n_elems s -> ushape s' = s).
  { intros s' l' X1 X2 X3. destruct X2 as [X2|X2]; [|congruence]. rewrite X2. now apply ushape_full. }
  split; [|split; [|split]].
  - intros S2. rewrite (ax_single fresh i (ushape s1, l1) (ushape s2, l2)); cbn [fst snd]; [ |intros U; pose proof (ushape_def s1 A1) as U'; rewrite U in U'; discriminate|now apply ushape_def|now rewrite ushape_n|rewrite ushape_n; congruence|exact S2].
    exists (ushape s1, map (fun x => x + at_ (ushape s2, l2) 0) l1). split; [reflexivity|]. split.
    + pose proof (ushape_fits s _ F1) as (U1 & U2 & U3). cbn [fst snd] in *. split; [exact U1|]. cbn [fst snd]. rewrite map_length. split; [exact U2|exact U3].
    + intros k Hk. eapply lim_val; [|exact (L k Hk)].
      pose proof (at_map (fun x => x + at_ (ushape s2, l2) 0) s (s1, l1) (ushape s1) k F1 Hk) as U. cbn [snd] in U. transitivity (at_ (s1, l1) k + at_ (ushape s2, l2) 0); [|symmetry; exact U].
      f_equal. destruct l2 as [|y [|]]; cbn in S2; try discriminate. reflexivity.
  - intros S2 S1 Hi Hd. rewrite (Full s1 l1 A2 A3 S1), (Full s2 l2 B2 B3 S2). rewrite ax_full by auto.
    replace ((length s =? 1)%nat || (nth i s 0%nat =? 1)%nat) with true by (symmetry; apply Bool.orb_true_iff; destruct Hd as [->| ->]; auto).
    eexists. split; [reflexivity|]. split.
    + split; [exact F|]. cbn [fst snd]. rewrite map_length, seq_length. auto.
    + intros k Hk. eapply lim_val; [|exact (L k Hk)].
      rewrite (RbmTrainProofs.at_nth' (s1, l1) k _ S1 Hk), (RbmTrainProofs.at_nth' (s2, l2) k _ S2 Hk), (RbmTrainProofs.at_nth' (s, map (fun k => nth k l1 0 + nth k l2 0) (seq 0 (n_elems s))) k (n_elems s)); cbn [snd]; [|now rewrite map_length, seq_length|exact Hk].
      symmetry. etransitivity; [apply (nth_indep _ 0 (nth 0%nat l1 0 + nth 0%nat l2 0)); rewrite map_length, seq_length; exact Hk|].
      rewrite (map_nth (fun k => nth k l1 0 + nth k l2 0)), seq_nth by exact Hk. reflexivity.
  - intros S2 S1 Hi H1 Hd. rewrite (Full s1 l1 A2 A3 S1), (Full s2 l2 B2 B3 S2). rewrite ax_full by auto.
    destruct (Nat.eqb_spec (length s) 1); [contradiction|]. destruct (Nat.eqb_spec (nth i s 0%nat) 1); [contradiction|]. reflexivity.
  - intros S2 H. rewrite (Full s2 l2 B2 B3 S2). destruct (Nat.eq_dec (length l1) 1) as [E1|E1].
    + destruct l1 as [|y [|]]; cbn in E1; try discriminate. apply ax_ub; auto. rewrite ushape_n. cbn [length] in A2. congruence.
    + destruct H as [H|H]; [contradiction|]. destruct A3 as [A3|A3]; [|congruence]. subst s1. rewrite (ushape_full s N1). apply ax_out; auto.
Qed.

(** All the cases occur: for a variable with four elements as a 2x2 matrix, sin x summed along
    axis 0 plus exp x along axis 1 has the right gradient, both along axis 0 throw, x plus
    sin x reads out of bounds, and both along axis 1 of a 4x1 matrix are right again. *)
Lemma C66_nonvacuous_lemma :
  let e1 := EUn USin (EVar 0%nat) in let e2 := EUn UExp (EVar 0%nat) in
  forall fresh use, let env s := (fun _ => (s, [1; 2; 3; 4])) : nat -> tens R in
  let grad s i j a b := (x <- gbinary Rnum (fun _ _ => false) BAdd (GSum (Some i) (inj a)) (GSum (Some j) (inj b)) ;;
                         g <- gderive Rnum fresh use INR (fun _ _ => false) (env s) 0%nat x ;; geval Rnum fresh use INR (env s) g) in
  (forall s, s = [2; 2]%nat \/ s = [4; 1]%nat -> proper s (env s) 0%nat (EVar 0%nat) /\ proper s (env s) 0%nat e1 /\ proper s (env s) 0%nat e2) /\
  (exists t, grad [2; 2]%nat 0%nat 1%nat e1 e2 = Ok t) /\
  grad [2; 2]%nat 0%nat 0%nat e1 e2 = Throw /\
  grad [2; 2]%nat 0%nat 0%nat (EVar 0%nat) e1 = UB /\
  (exists t, grad [4; 1]%nat 1%nat 1%nat e1 e2 = Ok t) /\
  grad [2; 2]%nat 2%nat 2%nat e1 e2 = UB.
Proof.
  intros e1 e2 fresh use env grad.
  assert (P : forall s, s = [2; 2]%nat \/ s = [4; 1]%nat -> proper s (env s) 0%nat (EVar 0%nat) /\ proper s (env s) 0%nat e1 /\ proper s (env s) 0%nat e2).
  { intros s Hs. assert (F : is_fully_defined s = true) by (destruct Hs as [->| ->]; reflexivity). assert (N : n_elems s = 4%nat) by (destruct Hs as [->| ->]; reflexivity).
    assert (Ft : fits s (env s 0%nat)) by (split; [exact F|split; [cbn [env fst snd length]; congruence|now left]]).
    unfold proper. rewrite N.
    repeat split; try exact F; try discriminate; try exact Ft; try exact I; cbn; auto. }
  assert (D : forall s op op', (op = USin /\ op' = UCos) \/ (op = UExp /\ op' = UExp) -> gderive Rnum fresh use INR (fun _ _ => false) (env s) 0%nat (inj (EUn op (EVar 0%nat))) = Ok (GUn op' (GVar 0%nat))).
  { intros s op op' Ho. unfold gderive. cbn [inj GroupModel.ginfo gleaf Nat.eqb fst snd ginherit gterminal bind].
    assert (E1 : n_eqb Rnum (n_one Rnum) (n_zero Rnum) = false) by (apply Reqb_no; cbn; lra).
    assert (E2 : n_eqb Rnum (n_zero Rnum) (n_one Rnum) = false) by (apply Reqb_no; cbn; lra).
    assert (E3 : n_eqb Rnum (n_one Rnum) (n_one Rnum) = true) by apply Reqb_yes.
    assert (X : forall op, gbinary Rnum (fun _ _ => false) BMul (GConst (const_scalar (n_one Rnum))) (GUn op (GVar 0%nat)) = Ok (GUn op (GVar 0%nat))).
    { intros q. unfold gbinary. cbn [grouping ghelper gview const_scalar cview_of snd]. unfold const_is. cbn [snd const_scalar]. rewrite ?E1. change (one_elem (const_scalar (n_one Rnum))) with true. cbn [gunary]. rewrite ?E2, ?E3. reflexivity. }
    destruct Ho as [[-> ->]|[-> ->]]; cbn [gback1 gunary gfold bind]; rewrite X; reflexivity. }
  assert (D0 : forall s, gderive Rnum fresh use INR (fun _ _ => false) (env s) 0%nat (inj (EVar 0%nat)) = Ok (GConst (const_scalar (n_one Rnum)))) by reflexivity.
  assert (V : forall s op t, s = [2; 2]%nat \/ s = [4; 1]%nat -> geval Rnum fresh use INR (env s) (GUn op (GVar 0%nat)) = Ok t -> length (snd t) = n_elems s).
  { intros s op t Hs E. cbn [geval bind] in E. cbn [sem] in E. 
    assert (W : forall q, forward_pass fresh elementary_shaper (transform_fwd q) [env s 0%nat] None = Ok (ushape s, map q [1; 2; 3; 4])).
    { intros q. apply unary_ok. destruct Hs as [->| ->]; split; reflexivity. }
    rewrite W in E. injection E as <-. destruct Hs as [->| ->]; reflexivity. }
  assert (Hs : forall a b : @gexpr R, (fun _ _ => false) a b = true -> a = b) by discriminate.
  split; [exact P|].
  assert (H22 : [2; 2]%nat = [2; 2]%nat \/ [2; 2]%nat = [4; 1]%nat) by now left. assert (H41 : [4; 1]%nat = [2; 2]%nat \/ [4; 1]%nat = [4; 1]%nat) by now right.
  destruct (P _ H22) as (Q0 & Q1 & Q2). destruct (P _ H41) as (O0 & O1 & O2).
  split; [|split; [|split; [|split]]].
  - destruct (C66_other_axes_lemma fresh use _ Hs _ _ _ _ _ 0%nat 1%nat Q1 Q2) as (x & g & X & G & t & T & _); [discriminate|cbn; lia|cbn; lia|reflexivity|].
    exists t. unfold grad. rewrite X. cbn [bind]. rewrite G. exact T.
  - destruct (C66_same_axis_lemma fresh use _ Hs _ _ _ _ _ 0%nat Q1 Q2) as (x & g & g1 & g2 & t1 & t2 & X & G & G1 & T1 & G2 & T2 & _ & _ & _ & _ & H & _).
    unfold e1 in G1. rewrite (D _ USin UCos) in G1 by auto. injection G1 as <-. unfold e2 in G2. rewrite (D _ UExp UExp) in G2 by auto. injection G2 as <-.
    unfold grad. rewrite X. cbn [bind]. rewrite G. cbn [bind]. apply H; [exact (V _ _ _ H22 T2)|exact (V _ _ _ H22 T1)|cbn; lia|discriminate|discriminate].
  - destruct (C66_same_axis_lemma fresh use _ Hs _ _ _ _ _ 0%nat Q0 Q1) as (x & g & g1 & g2 & t1 & t2 & X & G & G1 & T1 & G2 & T2 & _ & _ & _ & _ & _ & H).
    rewrite D0 in G1. injection G1 as <-. unfold e1 in G2. rewrite (D _ USin UCos) in G2 by auto. injection G2 as <-.
    unfold grad. rewrite X. cbn [bind]. rewrite G. cbn [bind]. apply H; [exact (V _ _ _ H22 T2)|left]. injection T1 as <-. reflexivity.
  - destruct (C66_same_axis_lemma fresh use _ Hs _ _ _ _ _ 1%nat O1 O2) as (x & g & g1 & g2 & t1 & t2 & X & G & G1 & T1 & G2 & T2 & _ & _ & _ & H & _).
    unfold e1 in G1. rewrite (D _ USin UCos) in G1 by auto. injection G1 as <-. unfold e2 in G2. rewrite (D _ UExp UExp) in G2 by auto. injection G2 as <-.
    destruct H as (t & T & _); [exact (V _ _ _ H41 T2)|exact (V _ _ _ H41 T1)|cbn; lia|now right|]. exists t. unfold grad. rewrite X. cbn [bind]. rewrite G. exact T.
  - destruct (C66_same_axis_lemma fresh use _ Hs _ _ _ _ _ 2%nat Q1 Q2) as (x & g & g1 & g2 & t1 & t2 & X & G & G1 & T1 & G2 & T2 & _ & _ & _ & _ & _ & H).
    unfold e1 in G1. rewrite (D _ USin UCos) in G1 by auto. injection G1 as <-. unfold e2 in G2. rewrite (D _ UExp UExp) in G2 by auto. injection G2 as <-.
    unfold grad. rewrite X. cbn [bind]. rewrite G. cbn [bind]. apply H; [exact (V _ _ _ H22 T2)|right; cbn; lia].
Qed.
