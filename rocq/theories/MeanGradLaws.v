(** C64: gradients through reduce_mean. *)
From Coq Require Import Reals Lra Lia.
From Verif Require Import Common ShapeModel ShapeSpec ShapeProofs TransformSpec TransformModel TransformProofs TransformLaws MatmulSpec MatmulModel ElemSpec ElemModel ElemProofs CseModel CseSpec NumSpec RealNum ElemLaws GradModel GradSpec GradProofs GradLaws NetSpec NetProofs NetMlpProofs NetLaws GroupModel GroupProofs GroupSubst MeanLaws RbmTrainProofs CoordSum ShapeGradSpec ShapeGradLaws.
Local Open Scope R_scope.

Lemma fresh_var (e : @expr R) : exists B, forall v, (B <= v)%nat -> has_leaf v e = false.
Proof.
  induction e as [x|t|op a [A Ha]|op a [A Ha] b [B Hb]|a [A Ha] b [B Hb]|a [A Ha]|a [A Ha]|a [A Ha]|ax a [A Ha]|tA tB a [A Ha] b [B Hb]|ax a [A Ha] b [B Hb]]; cbn [has_leaf];
    try (exists A; exact Ha); try (exists (Nat.max A B); intros v Hv; rewrite Ha, Hb by lia; reflexivity).
  - exists (S x). intros v Hv. apply Nat.eqb_neq. lia.
  - exists 0%nat. reflexivity.
Qed.
Lemma leaves_ext s (e1 e2 : nat -> tens R) e : (forall v, has_leaf v e = true -> e1 v = e2 v) -> leaves_fit s e1 e -> leaves_fit s e2 e.
Proof.
  induction e as [v|t|op a IH|op a IHa b IHb| | | | | | |]; cbn [leaves_fit has_leaf]; intros H; auto.
  - rewrite <- H by apply Nat.eqb_refl. auto.
  - intros [A B]. split; [apply IHa|apply IHb]; auto; intros v Hv; apply H; rewrite Hv; auto using Bool.orb_true_r.
Qed.
Lemma den_leaf_ext i r1 r2 (e : @expr R) s env : leaves_fit s env e -> (forall v, has_leaf v e = true -> r1 v = r2 v) -> den i r1 e = den i r2 e.
Proof.
  induction e as [v|t|op a IH|op a IHa b IHb| | | | | | |]; cbn [leaves_fit has_leaf den]; intros L H; try contradiction; auto.
  - apply H. apply Nat.eqb_refl.
  - now rewrite IH.
  - destruct L as [A B]. rewrite IHa, IHb; auto; intros v Hv; apply H; rewrite Hv; auto using Bool.orb_true_r.
Qed.
Lemma regular_ext i r1 r2 (e : @expr R) s env : leaves_fit s env e -> (forall v, has_leaf v e = true -> r1 v = r2 v) -> regular i r1 e -> regular i r2 e.
Proof.
  induction e as [v|t|op a IH|op a IHa b IHb| | | | | | |]; cbn [leaves_fit has_leaf regular]; intros L H; try contradiction; auto.
  - intros [A B]. rewrite <- (den_leaf_ext i r1 r2 a s env) by auto. auto.
  - destruct L as [La Lb]. intros (A & B & C).
    assert (Ha : forall v, has_leaf v a = true -> r1 v = r2 v) by (intros v Hv; apply H; rewrite Hv; reflexivity).
    assert (Hb : forall v, has_leaf v b = true -> r1 v = r2 v) by (intros v Hv; apply H; rewrite Hv; auto using Bool.orb_true_r).
    rewrite <- (den_leaf_ext i r1 r2 b s env) by auto. auto.
Qed.

Lemma grad_fit fresh use (same : @expr R -> @expr R -> bool) s env w e : (forall a b, same a b = true -> a = b) -> is_fully_defined s = true -> leaves_fit s env e -> fits s (env w) ->
  (forall i, (i < n_elems s)%nat -> regular i (fun v => at_ (env v) i) e) -> exists g, derive Rnum fresh use same env w e = Ok g /\ gfit fresh use s env g.
Proof.
  intros Hs F Hl Hw Hr.
  assert (TG : tangent fresh use s env same w 0 (fun i => if (length (snd (env w)) =? 1)%nat then 1 else if (i =? 0)%nat then 1 else 0) e).
  { apply tangent_elem; auto.
    - exact (fd_pos s F).
    - intros v. apply (set_elem_same s); [exact Hw|exact (fd_pos s F)].
    - apply (leaves_atoms s env); auto.
      + intros v _ Hv. destruct (Nat.eq_dec v w) as [->|Hvw]; [|now apply tangent_other]. apply tangent_self; [exact Hw|]. intros i Hi.
        destruct (Nat.eqb_spec (length (snd (env w))) 1) as [L1|L1].
        * apply (lim_ext id); [|apply derivable_pt_lim_id]. intros r. unfold id, set_elem. rewrite Nat.eqb_refl. unfold at_. cbn [snd].
          destruct (snd (env w)) as [|x [|y l]]; cbn in L1; try discriminate. reflexivity.
        * destruct (Nat.eqb_spec i 0) as [->|Hik].
          -- apply (lim_ext id); [|apply derivable_pt_lim_id]. intros r. symmetry. now apply (set_elem_at_self s).
          -- apply (lim_ext (fct_cte (at_ (env w) i))); [|apply derivable_pt_lim_const]. intros r. symmetry. now apply set_elem_at_other.
      + intros t Ht. now apply tangent_const.
    - now apply regular_v.
    - now apply (elem_noterm _ _ _ s). }
  destruct TG as (_ & g & G1 & G2 & _). exists g. split; [|exact G2].
  unfold derive, derive_of. rewrite (elem_no_jac _ _ _ s) by auto. unfold grad in G1. now rewrite G1.
Qed.

Section P.
Context (fresh : nat -> R) (use : bool) (gsame : @gexpr R -> @gexpr R -> bool) (gsame_ok : forall a b, gsame a b = true -> a = b).
Notation gev := (geval Rnum fresh use INR).
Notation gd := (gderive Rnum fresh use INR gsame).

Lemma gsame_no a b : a <> b -> gsame a b = false.
Proof. intros H. destruct (gsame a b) eqn:E; [exfalso; auto|reflexivity]. Qed.
Lemma mean_built axis (a : @gexpr R) : gmean Rnum gsame axis a = Ok (GBin BDiv (GSum axis a) (GSize axis a)).
Proof. unfold gmean, gbinary. cbn [grouping ghelper gview]. rewrite gsame_no by discriminate. reflexivity. Qed.
Lemma n_pos s : is_fully_defined s = true -> (0 < n_elems s)%nat.
Proof. intros F. apply is_fully_defined_iff in F. rewrite n_elems_prod by apply F. destruct F as [_ F]. induction s as [|x s IH]; cbn; [lia|]. inversion F; subst. specialize (IH H2). nia. Qed.

Lemma sq_built axis (a : @gexpr R) : exists d, gbinary Rnum gsame BMul (GSize axis a) (GSize axis a) = Ok d /\ (d = GUn (UPow 2) (GSize axis a) \/ d = GBin BMul (GSize axis a) (GSize axis a)).
Proof.
  unfold gbinary. cbn [grouping ghelper gview]. destruct (gsame _ _); cbn [gunary gnode2].
  - change (n_two Rnum) with 2. assert (A : n_eqb Rnum 2 (n_zero Rnum) = false) by (apply Reqb_no; cbn; lra). assert (B : n_eqb Rnum 2 (n_one Rnum) = false) by (apply Reqb_no; cbn; lra).
    rewrite A, B. eauto.
  - eauto.
Qed.
Lemma mean_back i (a g : @gexpr R) d : gbinary Rnum gsame BMul (GSize (Some i) a) (GSize (Some i) a) = Ok d -> grouping d = None -> gview Rnum d = CNone ->
  d <> GAx BMul false i (GGrp i g) (GSize (Some i) a) ->
  gback2 Rnum gsame BDiv (GSum (Some i) a) (GSize (Some i) a) (GGrp i g) (GConst (const_scalar (n_zero Rnum))) = Ok (GBin BDiv (GAx BMul false i (GGrp i g) (GSize (Some i) a)) d).
Proof.
  intros D1 D3 D4 D5. assert (Z : gview Rnum (GConst (const_scalar (n_zero Rnum))) = CZero) by (cbn [gview cview_of]; apply RbmTrainProofs.view0).
  cbn [gback2]. rewrite D1.
  replace (gbinary Rnum gsame BMul (GGrp i g) (GSize (Some i) a)) with (Ok (GAx BMul false i (GGrp i g) (GSize (Some i) a)))
    by (unfold gbinary; cbn [grouping ghelper gview]; rewrite gsame_no by discriminate; reflexivity).
  cbn [bind].
  replace (gbinary Rnum gsame BMul (GConst (const_scalar (n_zero Rnum))) (GSum (Some i) a)) with (Ok (GConst (const_scalar (n_zero Rnum)) : @gexpr R))
    by (unfold gbinary; cbn [grouping ghelper]; rewrite gsame_no by discriminate; rewrite Z; reflexivity).
  cbn [bind].
  replace (gbinary Rnum gsame BSub (GAx BMul false i (GGrp i g) (GSize (Some i) a)) (GConst (const_scalar (n_zero Rnum)))) with (Ok (GAx BMul false i (GGrp i g) (GSize (Some i) a)))
    by (unfold gbinary; cbn [grouping ghelper]; rewrite gsame_no by discriminate; rewrite Z; reflexivity).
  cbn [bind]. unfold gbinary. cbn [grouping]. rewrite D3. cbn [ghelper]. rewrite gsame_no by congruence. rewrite D4. reflexivity.
Qed.

(** the value of a mean *)
Lemma mean_value env (a : @gexpr R) s l : is_fully_defined s = true -> gev env a = Ok (s, l) -> length l = n_elems s ->
  gev env (GBin BDiv (GSum None a) (GSize None a)) = Ok ([1%nat], [fold_right Rplus 0 l / INR (n_elems s)]).
Proof.
  intros F E L. cbn [geval]. rewrite E. cbn [bind]. rewrite (sum_all Rnum fresh use INR s l 0) by (split; auto). cbn [bind]. rewrite size_all. cbn [bind].
  rewrite div_scalar by (split; reflexivity). cbn [map n_elems]. change (n_elems [1%nat] =? 1)%nat with true. cbn iota. do 3 f_equal. cbn [n_div Rnum].
  f_equal. clear. destruct l as [|x l]; [reflexivity|]. cbn [fold1]. revert x. induction l as [|y l IH]; intros x; cbn; [lra|]. cbn in IH. rewrite IH. cbn. lra.
Qed.
Lemma mean_axis_value env (a : @gexpr R) s l i : is_fully_defined s = true -> gev env a = Ok (s, l) -> length l = n_elems s -> (i < length s)%nat ->
  total (gev env (GBin BDiv (GSum (Some i) a) (GSize (Some i) a))) = total (gev env (GSum (Some i) a)) / INR (nth i s 0%nat).
Proof.
  intros F E L Hi. pose proof (proj1 (proj2 (C18_reduced_shape_lemma s i F) Hi)) as Ho.
  destruct (sum_axis Rnum fresh use INR i s l 0 _ (conj F L) Hi Ho) as (d & S1 & S2 & _).
  cbn [geval]. rewrite E. cbn [bind]. rewrite S1. cbn [bind]. rewrite size_axis by exact Hi. cbn [bind]. rewrite div_scalar by exact S2. cbn [total snd].
  change (n_div Rnum) with Rdiv. generalize (INR (nth i s 0%nat)). intros m. clear. induction d as [|x d IH]; cbn; [unfold Rdiv; ring|]. rewrite IH. unfold Rdiv. ring.
Qed.
End P.

(** ---- C64 ---- *)

(** reduce_mean over all elements: the gradient has the layout of the variable and its elements
    are the derivatives of the mean. *)
Lemma C64_mean_lemma :
  forall fresh use gsame, (forall a b : @gexpr R, gsame a b = true -> a = b) ->
  forall (s : shape) (env : nat -> tens R) (w : nat) (e : expr),
    proper s env w e ->
    exists x g t, gmean Rnum gsame None (inj e) = Ok x /\ gderive Rnum fresh use INR gsame env w x = Ok g /\ geval Rnum fresh use INR env g = Ok t /\ fits s t /\
      forall k, (k < n_elems s)%nat ->
        derivable_pt_lim (fun r => total (geval Rnum fresh use INR (set_elem env w k r) x)) (at_ (env w) k) (at_ t k) /\
        derivable_pt_lim (fun r => total (geval Rnum fresh use INR (set_elem env w k r) (inj e))) (at_ (env w) k) (INR (n_elems s) * at_ t k).
Proof.
  intros fresh use gsame Hs s env w e P. pose proof P as (F & N1 & Hl & Hw & Es & Ln & Hr).
  pose proof (n_pos s F) as Np. assert (Nz : INR (n_elems s) <> 0) by (apply not_0_INR; lia).
  destruct (fresh_var e) as (B & HB). set (vx := Nat.max B (S w)).
  assert (Vf : has_leaf vx e = false) by (apply HB; unfold vx; lia). assert (Vw : vx <> w) by (unfold vx; lia).
  set (envx := fun v => if (v =? vx)%nat then ([1%nat], [INR (n_elems s)]) else env v : tens R).
  assert (Ev : envx vx = ([1%nat], [INR (n_elems s)])) by (unfold envx; now rewrite Nat.eqb_refl).
  assert (Eo : forall v, v <> vx -> envx v = env v) by (intros v Hv; unfold envx; now destruct (Nat.eqb_spec v vx)).
  assert (Ee : forall v, has_leaf v e = true -> env v = envx v) by (intros v Hv; symmetry; apply Eo; intros ->; congruence).
  pose proof (value_full fresh use s env w e F N1 Hl Hw Es Ln) as (l0 & El0 & Ll0).
  assert (E0 : geval Rnum fresh use INR env (GSize None (inj e)) = Ok (envx vx)).
  { cbn [geval]. rewrite geval_inj, El0. cbn [bind]. rewrite size_all. now rewrite Ev. }
  set (inx := injs vx None (inj e)). set (same_x := fun a b : @expr R => gsame (inx a) (inx b)).
  assert (Hx : forall a b, same_x a b = true -> a = b) by (intros a b H; apply Hs in H; now apply injs_inj in H).
  assert (Lx : leaves_fit s envx e) by (now apply (leaves_ext s env)).
  assert (Rx : forall i, (i < n_elems s)%nat -> regular i (fun v => at_ (envx v) i) e).
  { intros i Hi. apply (regular_ext i (fun v => at_ (env v) i) _ e s env); auto. intros v Hv. now rewrite Ee. }
  assert (Ew : envx w = env w) by (apply Eo; congruence).
  assert (Fw : fits s (envx w)) by (rewrite Ew; split; [congruence|]; split; [congruence|now left]).
  destruct (C36_gradient_lemma fresh use same_x Hx s envx w e F Lx Fw Rx) as (g & t & E1 & E2 & E3 & _).
  destruct (C37_sum_elementwise_lemma fresh use same_x Hx s envx w e F Lx Hw ltac:(now rewrite Ew) ltac:(now rewrite Ew) Rx) as (g' & t' & E1' & E2' & _ & E4).
  rewrite (proj2 C37_reduce_sum_lemma) in E1' by exact Hw. rewrite E1 in E1'. injection E1' as <-. rewrite E2 in E2'. injection E2' as <-.
  pose proof (elem_no_jac fresh use same_x s envx w e Lx) as Nj.
  pose proof (info_injs Rnum fresh use INR gsame vx None (inj e) env envx E0 Eo w e (leaves_axis w s env e Hl) Vf) as J. fold inx in J. change (fun a b : @expr R => gsame (inx a) (inx b)) with same_x in J.
  assert (J' : ginfo Rnum fresh use INR gsame env w (inj e) = (Ok (inx g), None)).
  { rewrite <- (injs_free vx None (inj e) e Vf). fold inx. rewrite J. unfold injs_i. unfold derive, derive_of in E1. rewrite Nj in *.
    match type of E1 with bind ?x _ = _ => destruct x eqn:Q; cbn [bind] in E1; try discriminate; injection E1 as -> end. reflexivity. }
  destruct (grad_fit fresh use same_x s envx w e Hx F Lx Fw Rx) as (g0 & G1 & G0). rewrite E1 in G1. injection G1 as <-.
  assert (Gf : gfit fresh use s envx (ESum e)).
  { exists ([1%nat], [fold1 Rplus 0 l0]). split; [|split; [reflexivity|split; [reflexivity|now right]]]. cbn [eval]. rewrite <- (eval_ext fresh use env envx e Ee), El0. cbn [bind].
    exact (sum_all Rnum fresh use INR s l0 0 (conj F Ll0)). }
  assert (Gg : gives fresh use s envx (back_binary Rnum same_x BDiv (ESum e) (EVar vx) g (EConst (const_scalar 0)))
    (fun i => bslope BDiv (nval fresh use envx i (ESum e)) (nval fresh use envx i (EVar vx)) (nval fresh use envx i g) (nval fresh use envx i (EConst (const_scalar 0))))).
  { apply gives_back_binary; auto.
    - exists ([1%nat], [INR (n_elems s)]). split; [cbn; now rewrite Ev|]. split; [reflexivity|]. split; [reflexivity|now right].
    - apply gfit_const_intro, fits_scalar.
    - intros _ i _. unfold nval. cbn [eval]. rewrite Ev. exact Nz. }
  destruct Gg as (X & X1 & X2 & X3). destruct (gfit_ev fresh use s envx X X2) as (u & U1 & U2).
  assert (Av : forall k, (k < n_elems s)%nat -> at_ u k = at_ t k / INR (n_elems s)).
  { intros k Hk. specialize (X3 k Hk). unfold nval in X3. rewrite U1, E2 in X3. cbn [elem eval] in X3. rewrite X3, Ev. cbn [bslope]. rewrite at_scalar.
    change (at_ ([1%nat], [INR (n_elems s)]) k) with (INR (n_elems s)). field. exact Nz. }
  exists (GBin BDiv (GSum None (inj e)) (GSize None (inj e))), (inx X), u.
  split; [now apply mean_built|].
  split; [|split; [unfold inx; rewrite (geval_injs Rnum fresh use INR vx None (inj e) env envx E0 Eo); exact U1|split; [exact U2|]]].
  - unfold gderive, gderive_of. cbn [GroupModel.ginfo gleaf]. rewrite J', leaf_inj, Hw. cbn [fst snd orb ginherit gterminal bind].
    replace (GSum None (inj e)) with (inx (ESum e)) by (unfold inx; cbn [injs]; now rewrite injs_free).
    replace (GSize None (inj e)) with (inx (EVar vx)) by (unfold inx; cbn [injs]; now rewrite Nat.eqb_refl).
    change (GConst (const_scalar (n_zero Rnum))) with (inx (EConst (const_scalar 0))). unfold inx. rewrite back2_injs. fold inx. change (fun a b : @expr R => gsame (inx a) (inx b)) with same_x. rewrite X1. reflexivity.
  - intros k Hk. destruct (base fresh use INR gsame Hs s env w e P) as (_ & _ & _ & _ & _ & _ & V & _).
    assert (D : derivable_pt_lim (fun r => total (geval Rnum fresh use INR (set_elem env w k r) (inj e))) (at_ (env w) k) (at_ t k)).
    { assert (Fw' : fits s (env w)) by now rewrite <- Ew.
      rewrite <- Ew. eapply lim_ext; [|exact (E4 k Hk)]. intros r. cbv beta. rewrite geval_inj.
      rewrite (total_elems fresh use s _ w); auto; [|now apply set_elem_leaves|now rewrite set_fst|now rewrite set_len].
      apply sumR_ext. intros i Hi. f_equal. apply eval_ext. intros v Hv. unfold set_elem. rewrite Ew. destruct (v =? w)%nat; [reflexivity|]. symmetry. now apply Ee. }
    rewrite Av by exact Hk. split.
    + apply (lim_ext (mult_real_fct (/ INR (n_elems s)) (fun r => total (geval Rnum fresh use INR (set_elem env w k r) (inj e))))).
      * intros r. unfold mult_real_fct. destruct (V k r) as (l & El & Ll). rewrite (mean_value fresh use _ _ s l F El Ll). rewrite El. cbn [total snd fold_right]. unfold Rdiv. ring.
      * eapply lim_val; [|apply derivable_pt_lim_scal; exact D]. unfold Rdiv. ring.
    + eapply lim_val; [|exact D]. field. exact Nz.
Qed.

(** reduce_mean along an axis: the same for the sum of the node's elements, each the mean of
    one line of e along the axis. *)
Lemma C64_mean_axis_lemma :
  forall fresh use gsame, (forall a b : @gexpr R, gsame a b = true -> a = b) ->
  forall (s : shape) (env : nat -> tens R) (w : nat) (e : expr) (axis : nat),
    proper s env w e -> (axis < length s)%nat ->
    exists x g t, gmean Rnum gsame (Some axis) (inj e) = Ok x /\ gderive Rnum fresh use INR gsame env w x = Ok g /\ geval Rnum fresh use INR env g = Ok t /\ fits s t /\
      forall k, (k < n_elems s)%nat ->
        derivable_pt_lim (fun r => total (geval Rnum fresh use INR (set_elem env w k r) x)) (at_ (env w) k) (at_ t k) /\
        derivable_pt_lim (fun r => total (geval Rnum fresh use INR (set_elem env w k r) (inj e))) (at_ (env w) k) (INR (nth axis s 0%nat) * at_ t k).
Proof.
  intros fresh use gsame Hs s env w e i P Hi. destruct (base fresh use INR gsame Hs s env w e P) as (g & t & I & D & E & Ft & V & L).
  pose proof P as (F & N1 & Hl & Hw & Es & Ln & Hr).
  assert (Mp : (0 < nth i s 0)%nat) by (apply nth_pos; [now apply is_fully_defined_iff|exact Hi]).
  set (m := INR (nth i s 0%nat)). assert (Nz : m <> 0) by (apply not_0_INR; lia).
  pose proof (value_full fresh use s env w e F N1 Hl Hw Es Ln) as (l0 & El0 & Ll0).
  set (sz := GSize (Some i) (inj e)).
  assert (Ez : geval Rnum fresh use INR env sz = Ok ([1%nat], [m])).
  { unfold sz. cbn [geval]. rewrite geval_inj, El0. cbn [bind]. now rewrite size_axis. }
  set (q := GAx BMul false i (GGrp i (inj g)) sz).
  assert (Eq : geval Rnum fresh use INR env q = Ok (ushape (fst t), map (fun y => y * m) (snd t))).
  { unfold q. cbn [geval]. rewrite geval_inj, E. cbn [bind sem]. rewrite unary_ok by (eapply fits_wf; exact Ft). cbn [bind]. rewrite Ez. cbn [bind]. pose proof Ft as (F1 & F2 & _).
    etransitivity; [apply (C24_axial_scalar_lemma R fresh (bop_lambda Rnum BMul) false i (ushape (fst t)) [1%nat] m (map (fun x => x) (snd t))); [now apply ushape_def|reflexivity|rewrite map_length, ushape_n; exact F2]|].
    now rewrite map_map. }
  assert (Dq : exists d, gbinary Rnum gsame BMul sz sz = Ok d /\ geval Rnum fresh use INR env d = Ok ([1%nat], [m * m]) /\ grouping d = None /\ gview Rnum d = CNone /\ d <> q).
  { destruct (sq_built gsame (Some i) (inj e)) as (d & D1 & D2). exists d. split; [exact D1|]. fold sz in D2. destruct D2 as [->| ->].
    - split; [|split; [reflexivity|split; [reflexivity|discriminate]]].
      change (ta <- geval Rnum fresh use INR env sz ;; CseModel.sem Rnum fresh use INR (KUn (UPow 2)) [ta] = Ok ([1%nat], [m * m])). rewrite Ez. cbn [bind sem].
      etransitivity; [apply unary_ok; split; reflexivity|]. cbn [fst snd map]. change (ushape [1%nat]) with [1%nat]. do 3 f_equal.
      change (Rpow m 2 = m * m). rewrite (Rpow_IZR _ 2). change (powerRZ m 2) with (m ^ 2). ring.
    - split; [|split; [reflexivity|split; [reflexivity|discriminate]]].
      change (ta <- geval Rnum fresh use INR env sz ;; tb <- geval Rnum fresh use INR env sz ;; CseModel.sem Rnum fresh use INR (KBin BMul) [ta; tb] = Ok ([1%nat], [m * m])). rewrite Ez. cbn [bind sem].
      destruct (binary_ok fresh (bop_lambda Rnum BMul) ([1%nat], [m]) ([1%nat], [m])) as [H _]; [split; reflexivity|split; reflexivity|]. etransitivity; [apply H; now left|]. reflexivity. }
  destruct Dq as (d & D1 & D2 & D3 & D4 & D5).
  assert (G : gderive Rnum fresh use INR gsame env w (GBin BDiv (GSum (Some i) (inj e)) sz) = Ok (GBin BDiv q d)).
  { unfold gderive, gderive_of, sz. cbn [GroupModel.ginfo gleaf]. rewrite I, leaf_inj, Hw. cbn [fst snd orb ginherit gterminal bind]. rewrite (mean_back gsame Hs i (inj e) (inj g) d); auto. }
  destruct (bin_gen fresh s (bop_lambda Rnum BDiv) (ushape (fst t), map (fun y => y * m) (snd t)) ([1%nat], [m * m])) as (u & U1 & U2 & _ & _ & U3).
  { pose proof Ft as (F1 & F2 & F3). split; [now apply ushape_def|]. split; [cbn; rewrite map_length, ushape_n; exact F2|]. cbn [fst]. rewrite ushape_n.
    destruct F3 as [F3|F3]; [|now right]. unfold ushape. destruct (Nat.eqb_spec (n_elems (fst t)) 1); [now right|now left]. }
  { split; [reflexivity|]. split; [reflexivity|now right]. }
  exists (GBin BDiv (GSum (Some i) (inj e)) sz), (GBin BDiv q d), u. split; [now apply mean_built|]. split; [exact G|].
  split; [|split; [exact U2|]].
  - change (ta <- geval Rnum fresh use INR env q ;; tb <- geval Rnum fresh use INR env d ;; CseModel.sem Rnum fresh use INR (KBin BDiv) [ta; tb] = Ok u). rewrite Eq. cbn [bind]. rewrite D2. exact U1.
  - intros k Hk. assert (Av : at_ u k = at_ t k / m).
    { rewrite U3 by exact Hk. rewrite (at_map (fun y => y * m) s t) by auto. change (at_ ([1%nat], [m * m]) k) with (m * m). change (bop_lambda Rnum BDiv) with Rdiv. field. exact Nz. }
    rewrite Av. split.
    + apply (lim_ext (mult_real_fct (/ m) (fun r => total (geval Rnum fresh use INR (set_elem env w k r) (inj e))))).
      * intros r. unfold mult_real_fct. destruct (V k r) as (l & El & Ll). unfold sz. rewrite (mean_axis_value fresh use _ _ s l i F El Ll Hi).
        rewrite (sum_value fresh use INR _ _ s l i F El Ll). rewrite El. cbn [total snd]. fold m. unfold Rdiv. ring.
      * eapply lim_val; [|apply derivable_pt_lim_scal; apply L; exact Hk]. unfold Rdiv. ring.
    + eapply lim_val; [|apply L; exact Hk]. field. exact Nz.
Qed.
