(** C64: gradients through extend, flip, sums along an axis and l2norm. *)
From Coq Require Import Reals Lra Lia.
From Verif Require Import Common ShapeModel ShapeSpec ShapeProofs TransformSpec TransformModel TransformProofs TransformLaws MatmulSpec MatmulModel ElemSpec ElemModel ElemProofs CseModel NumSpec RealNum ElemLaws GradModel GradSpec GradProofs GradLaws NetSpec NetProofs NetMlpProofs NetLaws GroupModel GroupProofs CoordSum ShapeGradSpec.
Local Open Scope R_scope.

Lemma nth_same (a b : list R) i j : nth_error a i = nth_error b j -> nth i a 0 = nth j b 0.
Proof.
  assert (G : forall (l : list R) i, nth i l 0 = match nth_error l i with Some x => x | None => 0 end) by (induction l as [|x l IH]; intros [|k]; cbn; auto).
  intros H. now rewrite !G, H.
Qed.

Section P.
Context (fresh : nat -> R) (use : bool) (of_nat : nat -> R) (gsame : @gexpr R -> @gexpr R -> bool).
Notation gev := (geval Rnum fresh use of_nat).
Notation gd := (gderive Rnum fresh use of_nat gsame).

Lemma inj_one (a : @expr R) : forall b, inj a = inj b -> a = b.
Proof. induction a; intros [] H; cbn in H; try discriminate; injection H; intros; subst; f_equal; auto. Qed.

Lemma value_len s env w e : is_fully_defined s = true -> leaves_fit s env e -> has_leaf w e = true -> fst (env w) = s -> length (snd (env w)) = n_elems s ->
  exists t, eval Rnum fresh use env e = Ok t /\ fits s t /\ length (snd t) = n_elems s.
Proof.
  intros F Hl Hw Es Ln. induction e as [v|t|op a IH|op a IHa b IHb| | | | | | |]; cbn [leaves_fit has_leaf] in *; try contradiction; try discriminate.
  - apply Nat.eqb_eq in Hw. subst v. exists (env w). auto.
  - destruct (IH Hl Hw) as (t & E & Ft & L). destruct (un_ok fresh use s env op a t E Ft) as (u & U1 & U2 & U3 & _). exists u. split; [exact U1|]. split; [exact U2|congruence].
  - destruct Hl as [La Lb].
    destruct (eval_ok fresh use s env a La) as (ta & Ea & Fa & _). destruct (eval_ok fresh use s env b Lb) as (tb & Eb & Fb & _).
    destruct (bin_ok fresh use s env op a b ta tb Ea Eb Fa Fb) as (u & U1 & U2 & U3 & U4 & _). exists u. split; [exact U1|]. split; [exact U2|].
    apply Bool.orb_true_iff in Hw. destruct Hw as [Hw|Hw].
    + destruct (IHa La Hw) as (t & E & _ & L). rewrite Ea in E. injection E as ->. auto.
    + destruct (IHb Lb Hw) as (t & E & _ & L). rewrite Eb in E. injection E as ->. auto.
Qed.
Lemma value_full s env w e : is_fully_defined s = true -> n_elems s <> 1%nat -> leaves_fit s env e -> has_leaf w e = true -> fst (env w) = s -> length (snd (env w)) = n_elems s ->
  exists l, eval Rnum fresh use env e = Ok (s, l) /\ length l = n_elems s.
Proof.
  intros F N1 Hl Hw Es Ln. destruct (value_len s env w e F Hl Hw Es Ln) as ([s' l] & E & (F1 & F2 & F3) & L). cbn [fst snd] in *.
  destruct F3 as [->|F3]; [eauto|congruence].
Qed.
Lemma total_elems s env w e : is_fully_defined s = true -> n_elems s <> 1%nat -> leaves_fit s env e -> has_leaf w e = true -> fst (env w) = s -> length (snd (env w)) = n_elems s ->
  total (eval Rnum fresh use env e) = sumR (fun i => elem (eval Rnum fresh use env e) i) (n_elems s).
Proof.
  intros F N1 Hl Hw Es Ln. destruct (value_full s env w e F N1 Hl Hw Es Ln) as (l & E & L). rewrite E. cbn [total snd elem]. rewrite sum_list, L.
  apply sumR_ext. intros i Hi. symmetry. apply at_nth. cbn [snd]. congruence.
Qed.
Lemma leaves_axis w s env e : leaves_fit s env e -> no_axis_sum w e.
Proof. induction e as [v|t|op a IH|op a IHa b IHb| | | | | | |]; cbn; try contradiction; auto. intros [A B]. auto. Qed.

Lemma set_fst env w k x : fst (set_elem env w k x w) = fst (env w).
Proof. unfold set_elem. now rewrite Nat.eqb_refl. Qed.
Lemma set_len env w k x : length (snd (set_elem env w k x w)) = length (snd (env w)).
Proof. unfold set_elem. rewrite Nat.eqb_refl. cbn [snd]. destruct (snd (env w)) as [|a [|b l]]; [destruct k; reflexivity|reflexivity|]. apply length_set_nth. Qed.

Context (gsame_ok : forall a b, gsame a b = true -> a = b).
Notation same := (fun a b => gsame (inj a) (inj b)).
Lemma same_ok : forall a b : @expr R, gsame (inj a) (inj b) = true -> a = b.
Proof. intros a b H. apply inj_one. now apply gsame_ok. Qed.

(** derive of the expression itself, and its derivative *)
Lemma base s env w e : proper s env w e -> exists g t, ginfo Rnum fresh use of_nat gsame env w (inj e) = (Ok (inj g), None) /\ gd env w (inj e) = Ok (inj g) /\
  eval Rnum fresh use env g = Ok t /\ fits s t /\
  (forall k x, exists l, gev (set_elem env w k x) (inj e) = Ok (s, l) /\ length l = n_elems s) /\
  forall k, (k < n_elems s)%nat -> derivable_pt_lim (fun x => total (gev (set_elem env w k x) (inj e))) (at_ (env w) k) (at_ t k).
Proof.
  intros (F & N1 & Hl & Hw & Es & Ln & Hr).
  assert (Fw : fits s (env w)) by (split; [congruence|]; split; [congruence|now left]).
  destruct (C36_gradient_lemma fresh use same same_ok s env w e F Hl Fw Hr) as (g & t & E1 & E2 & E3 & _).
  destruct (C37_sum_elementwise_lemma fresh use same same_ok s env w e F Hl Hw Es Ln Hr) as (g' & t' & E1' & E2' & _ & E4).
  rewrite (proj2 C37_reduce_sum_lemma) in E1' by exact Hw. rewrite E1 in E1'. injection E1' as <-. rewrite E2 in E2'. injection E2' as <-.
  exists g, t. assert (I : GroupModel.ginfo Rnum fresh use of_nat gsame env w (inj e) = (Ok (inj g), None)).
  { rewrite (info_inj Rnum fresh use of_nat gsame env w e (leaves_axis w s env e Hl)). unfold inj_i.
    pose proof (elem_no_jac fresh use same s env w e Hl) as Nj. unfold derive, derive_of in E1. rewrite Nj in *.
    match type of E1 with bind ?x _ = _ => destruct x eqn:E0; cbn [bind] in E1; try discriminate; injection E1 as -> end. reflexivity. }
  split; [exact I|]. split; [unfold gderive, gderive_of; rewrite I; reflexivity|]. split; [exact E2|]. split; [exact E3|].
  assert (V : forall k x, exists l, eval Rnum fresh use (set_elem env w k x) e = Ok (s, l) /\ length l = n_elems s).
  { intros k x. apply (value_full s _ w); auto; [now apply set_elem_leaves|now rewrite set_fst|now rewrite set_len]. }
  split; [intros k x; rewrite geval_inj; apply V|]. intros k Hk. eapply lim_ext; [|exact (E4 k Hk)]. intros x. cbv beta. rewrite geval_inj. symmetry.
  apply (total_elems s _ w); auto; [now apply set_elem_leaves|now rewrite set_fst|now rewrite set_len].
Qed.

(** values *)
Lemma ext_value env a s l i m : is_fully_defined s = true -> gev env a = Ok (s, l) -> length l = n_elems s -> (i < length s)%nat ->
  total (gev env (gext Rnum i m a)) = INR m * fold_right Rplus 0 l.
Proof.
  intros F E L Hi. destruct m as [|[|m]]; cbn [gext].
  - cbn. lra.
  - rewrite E. cbn. lra.
  - set (k := S (S m)). cbn [geval]. rewrite E. cbn [bind sem].
    destruct (C17_extend_elements_lemma R s i k l (map fresh (seq 0 (k * n_elems s))) F Hi ltac:(unfold k; lia) L ltac:(now rewrite map_length, seq_length)) as (outs & d & S1 & S2 & S3 & S4 & S5 & S6).
    pose proof F as Fd. apply is_fully_defined_iff in Fd.
    assert (Fo : is_fully_defined outs = true).
    { apply is_fully_defined_iff. rewrite S2. split; [|apply set_nth_Forall; [|apply Fd]].
      - intros C. apply (f_equal (@length nat)) in C. rewrite length_set_nth in C. cbn in C. lia.
      - pose proof (nth_pos s i Fd Hi). unfold k. nia. }
    rewrite (forward_fresh fresh _ _ [(s, l)] outs d); [|exact S1|exact Fo|].
    + cbn [total snd]. rewrite (list_sumc outs d) by (rewrite S5; apply n_elems_prod; apply is_fully_defined_iff in Fo; apply Fo).
      rewrite (list_sumc s l) by (rewrite L; apply n_elems_prod, Fd). rewrite S2, <- (sumc_repeat s i k) by (auto; now apply nth_pos). rewrite <- S2.
      apply sumc_ext. intros c Hc. destruct (S6 c Hc) as (B & H). now apply nth_same.
    + cbn [map fst snd]. unfold forward1. cbn [rd nth_error bind]. rewrite S3. exact S4.
Qed.

Lemma flip_value env a s l dims : is_fully_defined s = true -> gev env a = Ok (s, l) -> length l = n_elems s -> Forall (fun d => (d < length s)%nat) dims ->
  exists l', gev env (GFlip dims a) = Ok (s, l') /\ length l' = n_elems s /\
    (forall c, in_bounds s c -> nth (offset s c) l' 0 = nth (offset s (mirror s dims c)) l 0) /\ fold_right Rplus 0 l' = fold_right Rplus 0 l.
Proof.
  intros F E L Hd. cbn [geval]. rewrite E. cbn [bind sem]. pose proof F as Fd. apply is_fully_defined_iff in Fd.
  destruct (C20_flip_elements_lemma R s dims l (map fresh (seq 0 (n_elems s))) F Hd L ltac:(now rewrite map_length, seq_length)) as (S1 & d & S2 & S3 & S4).
  exists d. split; [|split; [exact S3|]].
  - apply forward_fresh; [reflexivity|exact F|]. cbn [map fst snd]. unfold forward1. cbn [rd nth_error bind]. exact S2.
  - assert (H : forall c, in_bounds s c -> nth (offset s c) d 0 = nth (offset s (mirror s dims c)) l 0) by (intros c Hc; apply nth_same; now apply S4).
    split; [exact H|]. rewrite (list_sumc s d), (list_sumc s l) by (rewrite ?S3, ?L; apply n_elems_prod, Fd).
    rewrite <- (sumc_mirror s dims Hd (fun c => nth (offset s c) l 0)). apply sumc_ext. exact H.
Qed.
Lemma sum_value env a s l i : is_fully_defined s = true -> gev env a = Ok (s, l) -> length l = n_elems s ->
  total (gev env (GSum (Some i) a)) = fold_right Rplus 0 l.
Proof.
  intros F E L. cbn [geval]. rewrite E. cbn [bind sem]. pose proof F as Fd. apply is_fully_defined_iff in Fd.
  destruct (Nat.lt_ge_cases i (length s)) as [Hi|Hi].
  - destruct (proj2 (C18_reduced_shape_lemma s i F) Hi) as (S1 & S2). specialize (S2 _ S1). match type of S1 with _ = Ok ?o => set (outs := o) in * end.
    destruct (C18_compress_folds_axis_lemma R Rplus 0 s outs i l (map fresh (seq 0 (n_elems outs))) F Hi S1 L ltac:(now rewrite map_length, seq_length)) as (d & D1 & D2 & D3).
    assert (Fo : is_fully_defined outs = true).
    { apply is_fully_defined_iff. unfold outs. destruct (Nat.eqb_spec (length s) 1); [split; [discriminate|repeat constructor]|].
      destruct (Nat.eqb_spec i 0) as [->|]; [|destruct (Nat.eqb_spec i (length s - 1))].
      - destruct s as [|x [|y s]]; cbn in *; try lia. split; [discriminate|]. destruct Fd as [_ Fd]. now inversion Fd.
      - split; [|destruct Fd as [_ Fd]; rewrite <- (firstn_skipn i s) in Fd; apply Forall_app in Fd; apply Fd]. intros C. apply (f_equal (@length nat)) in C. rewrite firstn_length in C. cbn in C. lia.
      - split; [|apply set_nth_Forall; [lia|apply Fd]]. intros C. apply (f_equal (@length nat)) in C. rewrite length_set_nth in C. cbn in C. lia. }
    rewrite (forward_fresh fresh _ _ [(s, l)] outs d); [|exact S1|exact Fo|cbn [map fst snd]; unfold forward1; cbn [rd nth_error bind]; exact D1].
    cbn [total snd]. pose proof (nth_pos s i Fd Hi) as Hp.
    assert (Lp : length d = prod (set_nth i 1%nat s)).
    { rewrite D2. apply Nat.mul_cancel_l with (p := nth i s 0%nat); [lia|]. rewrite prod_set_nth by exact Hi. rewrite Nat.mul_comm, S2, Nat.mul_1_l. apply n_elems_prod, Fd. }
    rewrite (list_sumc (set_nth i 1%nat s) d Lp), (list_sumc s l) by (rewrite L; apply n_elems_prod, Fd). rewrite <- (sumc_along s i l Hi).
    apply sumc_ext. intros c Hc. apply nth_error_nth. now apply D3.
  - rewrite (forward_fresh fresh _ _ [(s, l)] s l); [reflexivity|exact (proj1 (C18_reduced_shape_lemma s i F) Hi)|exact F|].
    cbn [map fst snd]. unfold forward1. cbn [rd nth_error bind]. apply C18_compress_beyond_rank_copies_lemma; auto. now rewrite map_length, seq_length.
Qed.
End P.

(** ---- C64 ---- *)

(** extend: the gradient built for extend(e, index, multiplier) has the layout of the variable;
    multiplied by the multiplier its elements are the derivatives of the sum of the node's
    elements. Without the factor they are the derivatives of the sum of e's elements (for a
    multiplier other than 0, which gives the constant 0): extending does not count. *)
Lemma C64_extend_lemma :
  forall fresh use of_nat gsame, (forall a b : @gexpr R, gsame a b = true -> a = b) ->
  forall (s : shape) (env : nat -> tens R) (w : nat) (e : expr) (index m : nat),
    proper s env w e -> (index < length s)%nat ->
    let x := gext Rnum index m (inj e) in
    exists g t, gderive Rnum fresh use of_nat gsame env w x = Ok g /\ geval Rnum fresh use of_nat env g = Ok t /\ fits s t /\
      forall k, (k < n_elems s)%nat ->
        derivable_pt_lim (fun r => total (geval Rnum fresh use of_nat (set_elem env w k r) x)) (at_ (env w) k) (INR m * at_ t k) /\
        (m <> 0%nat -> derivable_pt_lim (fun r => total (geval Rnum fresh use of_nat (set_elem env w k r) (inj e))) (at_ (env w) k) (at_ t k)).
Proof.
  intros fresh use of_nat gsame Hs s env w e i m P Hi x. destruct (base fresh use of_nat gsame Hs s env w e P) as (g & t & I & D & E & Ft & V & L).
  pose proof P as (F & _ & _ & Hw & _).
  assert (X : forall k r, total (geval Rnum fresh use of_nat (set_elem env w k r) x) = INR m * total (geval Rnum fresh use of_nat (set_elem env w k r) (inj e))).
  { intros k r. destruct (V k r) as (l & El & Ll). rewrite El. cbn [total snd]. now apply (ext_value fresh use of_nat _ _ s l). }
  assert (Y : forall k, (k < n_elems s)%nat -> derivable_pt_lim (fun r => total (geval Rnum fresh use of_nat (set_elem env w k r) x)) (at_ (env w) k) (INR m * at_ t k)).
  { intros k Hk. eapply lim_ext; [|apply (derivable_pt_lim_scal _ (INR m) _ _ (L k Hk))]. intros r. unfold mult_real_fct. symmetry. apply X. }
  assert (G : m <> 0%nat -> gderive Rnum fresh use of_nat gsame env w x = Ok (inj g)).
  { intros Hm. unfold x. destruct m as [|[|m]]; [congruence|exact D|]. cbn [gext]. unfold gderive. cbn [GroupModel.ginfo]. rewrite I, leaf_inj, Hw. reflexivity. }
  destruct (Nat.eq_dec m 0) as [->|Hm].
  - exists (GConst (const_scalar 0)), (const_scalar 0). split; [reflexivity|]. split; [reflexivity|]. split; [apply fits_scalar|].
    intros k Hk. split; [|congruence]. rewrite at_scalar. eapply lim_val; [|apply (Y k Hk)]. cbn. ring.
  - exists (inj g), t. split; [now apply G|]. split; [now rewrite geval_inj|]. split; [exact Ft|]. intros k Hk. split; [now apply Y|]. intros _. now apply L.
Qed.

(** flip: if the gradient of e has the full shape, then so has the gradient of flip(e, dims), and
    its elements are the derivatives of the sum of the node's elements, but in mirrored
    positions: those of the node, not those of the variable. *)
Lemma C64_flip_lemma :
  forall fresh use of_nat gsame, (forall a b : @gexpr R, gsame a b = true -> a = b) ->
  forall (s : shape) (env : nat -> tens R) (w : nat) (e : expr) (dims : list nat),
    proper s env w e -> Forall (fun d => (d < length s)%nat) dims ->
    exists g t, gderive Rnum fresh use of_nat gsame env w (inj e) = Ok g /\ geval Rnum fresh use of_nat env g = Ok t /\
      (fst t = s ->
       exists g' t', gderive Rnum fresh use of_nat gsame env w (GFlip dims (inj e)) = Ok g' /\ geval Rnum fresh use of_nat env g' = Ok t' /\ fst t' = s /\
        forall c, in_bounds s c ->
          derivable_pt_lim (fun r => total (geval Rnum fresh use of_nat (set_elem env w (offset s c) r) (GFlip dims (inj e)))) (at_ (env w) (offset s c)) (at_ t' (offset s (mirror s dims c)))).
Proof.
  intros fresh use of_nat gsame Hs s env w e dims P Hd. destruct (base fresh use of_nat gsame Hs s env w e P) as (g & t & I & D & E & Ft & V & L).
  pose proof P as (F & N1 & _ & Hw & _). exists (inj g), t. split; [exact D|]. rewrite geval_inj. split; [exact E|]. intros St.
  destruct t as [s' l]. cbn [fst] in St. subst s'. pose proof Ft as (_ & Ln & _). cbn [fst snd] in Ln.
  destruct (flip_value fresh use of_nat env (inj g) s l dims F ltac:(now rewrite geval_inj) Ln Hd) as (l' & E' & L' & M & _).
  exists (GFlip dims (inj g)), (s, l'). split; [unfold gderive; cbn [GroupModel.ginfo]; rewrite I, leaf_inj, Hw; reflexivity|]. split; [exact E'|]. split; [reflexivity|].
  pose proof F as Fd. apply is_fully_defined_iff in Fd.
  intros c Hc. pose proof (in_bounds_offset_lt s c Fd Hc) as Hk. eapply lim_val; [|eapply lim_ext; [|apply (L _ Hk)]].
  - rewrite !at_nth by (cbn [snd]; congruence). cbn [snd]. rewrite M by now apply mirror_in_bounds. f_equal. f_equal.
    apply nth_ext0; [rewrite !mirror_length; reflexivity|]. intros k Hk'. rewrite !nth_mirror by (rewrite ?mirror_length; assumption).
    pose proof (in_bounds_length _ _ Hc). pose proof (proj2 (proj1 (in_bounds_nth s c) Hc) k ltac:(lia)). destruct (Nat.odd _); lia.
  - intros r. destruct (V (offset s c) r) as (lr & Er & Lr). destruct (flip_value fresh use of_nat _ _ s lr dims F Er Lr Hd) as (lf & Ef & _ & _ & Sf).
    rewrite Er, Ef. cbn [total snd]. now symmetry.
Qed.

(** Finding: the gradient of flip(x, dims) by the variable x itself is a flip of a single element,
    for which every axis but the first is out of range. *)
Lemma C64_flip_variable_refuted_lemma :
  forall fresh use of_nat gsame (env : nat -> tens R) w dims, Exists (fun d => (0 < d)%nat) dims ->
    exists g, gderive Rnum fresh use of_nat gsame env w (GFlip dims (GVar w)) = Ok g /\ geval Rnum fresh use of_nat env g = UB.
Proof.
  intros fresh use of_nat gsame env w dims H. exists (GFlip dims (GConst (const_scalar 1))). split.
  - unfold gderive. cbn [GroupModel.ginfo gleaf]. rewrite Nat.eqb_refl. reflexivity.
  - cbn [geval bind sem]. unfold forward_pass. cbn [map fst snd shaper1 rd nth_error bind flip_shape const_scalar]. change (is_fully_defined [1%nat]) with true. cbn [assert_ bind].
    unfold forward1. cbn [rd nth_error bind]. unfold flip_fwd, gather. change (n_elems [1%nat]) with 1%nat. cbn [for_ forloop].
    change (coordinate_from_idx [1%nat] 0) with (Ok (A := list nat) [0%nat]). cbn [bind].
    assert (X : forall x, flip_coord [1%nat] dims [x] = UB).
    { induction dims as [|d dims IH]; [inversion H|]. intros x. cbn [flip_coord]. destruct d as [|d]; [|destruct d; reflexivity].
      cbn [rd nth_error bind]. inversion H as [? ? H0|? ? H0]; subst; [lia|]. apply IH. exact H0. }
    rewrite X. reflexivity.
Qed.

(** reduce_sum along any axis (also one that does not exist): the gradient's elements are the
    derivatives of the sum of the node's elements. *)
Lemma C64_sum_axis_lemma :
  forall fresh use of_nat gsame, (forall a b : @gexpr R, gsame a b = true -> a = b) ->
  forall (s : shape) (env : nat -> tens R) (w : nat) (e : expr) (axis : nat),
    proper s env w e ->
    exists g t, gderive Rnum fresh use of_nat gsame env w (GSum (Some axis) (inj e)) = Ok g /\ geval Rnum fresh use of_nat env g = Ok t /\ fits s t /\
      forall k, (k < n_elems s)%nat ->
        derivable_pt_lim (fun r => total (geval Rnum fresh use of_nat (set_elem env w k r) (GSum (Some axis) (inj e)))) (at_ (env w) k) (at_ t k).
Proof.
  intros fresh use of_nat gsame Hs s env w e i P. destruct (base fresh use of_nat gsame Hs s env w e P) as (g & t & I & D & E & Ft & V & L).
  pose proof P as (F & _ & _ & Hw & _). exists (GGrp i (inj g)), (ushape (fst t), map (fun x => x) (snd t)).
  split; [unfold gderive; cbn [GroupModel.ginfo]; rewrite I, leaf_inj, Hw; reflexivity|].
  split; [cbn [geval]; rewrite geval_inj, E; cbn [bind sem]; apply unary_ok; eapply fits_wf; exact Ft|].
  split.
  - pose proof Ft as (F1 & F2 & F3). split; [now apply ushape_def|]. split; [cbn; rewrite map_length, ushape_n; exact F2|]. cbn [fst]. rewrite ushape_n.
    destruct F3 as [F3|F3]; [|now right]. unfold ushape. destruct (Nat.eqb_spec (n_elems (fst t)) 1); [now right|now left].
  - intros k Hk. rewrite map_id. change (at_ (ushape (fst t), snd t) k) with (at_ t k). eapply lim_ext; [|apply (L k Hk)]. intros r.
    destruct (V k r) as (l & El & Ll). cbv beta. rewrite (sum_value fresh use of_nat _ _ s l i F El Ll), El. reflexivity.
Qed.

(** Finding: the gradient of l2norm(x) is the constant 1 for every variable x; the node's value is
    the size of the first element, whose derivative is -1 for a negative one, and 0 by the
    others. *)
Lemma C64_l2norm_refuted_lemma :
  forall fresh use of_nat gsame (env : nat -> tens R) a b, env 0%nat = ([2%nat], [a; b]) -> a < 0 ->
    (exists g, gderive Rnum fresh use of_nat gsame env 0 (GNorm (GVar 0)) = Ok g /\ geval Rnum fresh use of_nat env g = Ok ([1%nat], [1])) /\
    derivable_pt_lim (fun r => total (geval Rnum fresh use of_nat (set_elem env 0 0 r) (GNorm (GVar 0)))) a (-1) /\
    derivable_pt_lim (fun r => total (geval Rnum fresh use of_nat (set_elem env 0 1 r) (GNorm (GVar 0)))) b 0.
Proof.
  intros fresh use of_nat gsame env a b H0 Ha. split; [|split].
  - eexists. split; [reflexivity|]. change (Ok ([1%nat], [0 + 1 * 1]) = Ok ([1%nat], [1])). now replace (0 + 1 * 1) with 1 by ring.
  - apply (lim_ext_loc (fun r => - r) _ a (-1) (- a)); [lra| |].
    + intros r Hr. assert (E : geval Rnum fresh use of_nat (set_elem env 0 0 r) (GNorm (GVar 0)) = Ok ([1%nat], [Rabs r])).
      { cbn [geval bind sem]. unfold set_elem. cbn [Nat.eqb]. rewrite H0. cbn [fst snd set_nth]. apply (C26_l2norm_node_refuted_lemma fresh [2%nat] r [b]). }
      rewrite E. cbn. apply Rabs_def2 in Hr. rewrite Rabs_left by lra. lra.
    + apply (derivable_pt_lim_opp id a 1). apply derivable_pt_lim_id.
  - apply (lim_ext (fct_cte (Rabs a))); [|apply derivable_pt_lim_const]. intros r.
    assert (E : geval Rnum fresh use of_nat (set_elem env 0 1 r) (GNorm (GVar 0)) = Ok ([1%nat], [Rabs a])).
    { cbn [geval bind sem]. unfold set_elem. cbn [Nat.eqb]. rewrite H0. cbn [fst snd set_nth]. apply (C26_l2norm_node_refuted_lemma fresh [2%nat] a [r]). }
    rewrite E. unfold fct_cte. cbn. lra.
Qed.

(** sin(x) for a variable of shape [2, 3] meets the hypotheses; its gradient has the full shape *)
Lemma C64_nonvacuous_lemma :
  forall fresh use of_nat,
  let gsame := fun _ _ : @gexpr R => false in
  let env := fun _ : nat => ([2; 3]%nat, [0; 1; 2; 3; 4; 5]) in
  let e := EUn USin (EVar 0) in
  (forall a b, gsame a b = true -> a = b) /\
  proper [2; 3]%nat env 0 e /\ (1 < length [2; 3]%nat)%nat /\ Forall (fun d => (d < length [2; 3]%nat)%nat) [0; 1]%nat /\
  exists g t, gderive Rnum fresh use of_nat gsame env 0 (inj e) = Ok g /\ geval Rnum fresh use of_nat env g = Ok t /\ fst t = [2; 3]%nat.
Proof.
  intros fresh use of_nat gsame env e. split; [discriminate|]. split; [|split; [cbn; lia|split; [repeat constructor|]]].
  - split; [reflexivity|]. split; [discriminate|]. split; [split; [reflexivity|]; split; [reflexivity|now left]|]. split; [reflexivity|]. split; [reflexivity|]. split; [reflexivity|].
    intros i _. split; exact I.
  - exists (GUn UCos (GVar 0)). eexists. split; [|split; [cbn [geval bind sem]; apply unary_ok; split; reflexivity|reflexivity]].
    unfold gderive. cbn [inj e GroupModel.ginfo gleaf Nat.eqb fst snd ginherit gterminal bind gback1 gunary gfold].
    assert (E1 : n_eqb Rnum (n_one Rnum) (n_zero Rnum) = false) by (apply Reqb_no; cbn; lra).
    assert (E2 : n_eqb Rnum (n_zero Rnum) (n_one Rnum) = false) by (apply Reqb_no; cbn; lra).
    assert (E3 : n_eqb Rnum (n_one Rnum) (n_one Rnum) = true) by apply Reqb_yes.
    assert (X : gbinary Rnum gsame BMul (GConst (const_scalar (n_one Rnum))) (GUn UCos (GVar 0)) = Ok (GUn UCos (GVar 0))).
    { unfold gbinary. cbn [grouping ghelper gview const_scalar cview_of snd]. unfold gsame, const_is. cbn [snd const_scalar]. rewrite ?E1. change (one_elem (const_scalar (n_one Rnum))) with true. cbn [gunary]. rewrite ?E2, ?E3. reflexivity. }
    rewrite X. reflexivity.
Qed.
