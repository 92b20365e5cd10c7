(** C69: derivatives of fit, clip_norm, comparisons, arg_max and cross_corr2d. *)
From Coq Require Import Reals Lra Lia.
From Verif Require Import Common ShapeModel ShapeSpec ShapeProofs TransformSpec TransformModel TransformProofs TransformLaws MatmulSpec MatmulModel ElemSpec ElemModel ElemProofs CseModel NumSpec RealNum ElemLaws GradModel GradSpec GradProofs GradLaws NetSpec NetProofs NetMlpProofs NetLaws GroupModel GroupProofs CoordSum ShapeGradSpec ShapeGradLaws SumGradLaws.
From Verif Require Import NodeLaws FitProofs OtherGradModel.
From Verif Require RbmTrainProofs.
Local Open Scope R_scope.

Lemma absent_info {T} (N : num T) fresh use of_nat same env w (e : @gexpr T) : gleaf w e = false ->
  ginfo N fresh use of_nat same env w e = (Ok (GConst (const_scalar (n_zero N))), None).
Proof.
  induction e; cbn [gleaf ginfo]; intros H; try (apply Bool.orb_false_iff in H; destruct H as [H1 H2]);
    try rewrite (IHe H); try rewrite (IHe1 H1), (IHe2 H2); try rewrite H; try rewrite H1, H2; try reflexivity.
  destruct lft; cbn [snd ginherit]; rewrite ?H1, ?H2; reflexivity.
Qed.
Lemma absent_nd {T} (N : num T) w (nd : @onode T) : existsb (gleaf w) (oargs N nd) = false -> forall a, In a (oargs N nd) -> gleaf w a = false.
Proof.
  intros H a Ha. destruct (gleaf w a) eqn:E; [|reflexivity]. assert (X : existsb (gleaf w) (oargs N nd) = true) by (apply existsb_exists; eauto). congruence.
Qed.

(** The derivative with respect to a variable that does not occur is the constant zero. *)
Lemma C69_absent_lemma :
  forall (T : Type) (N : num T) fresh use of_nat same (env : nat -> tens T) (k w : nat) (nd : onode),
    (forall a, In a (oargs N nd) -> gleaf w a = false) -> oderive N fresh use of_nat same env k w nd = Ok (const_scalar (n_zero N)).
Proof.
  intros T N fresh use of_nat same env k w nd H. unfold oderive.
  assert (E : existsb (gleaf w) (oargs N nd) = false).
  { destruct (existsb (gleaf w) (oargs N nd)) eqn:E; [|reflexivity]. apply existsb_exists in E. destruct E as (a & Ha & Hw). rewrite (H a Ha) in Hw. discriminate. }
  rewrite E. assert (J : fold_left (fun acc i => ginherit same acc (snd i)) (map (ginfo N fresh use of_nat same env w) (oargs N nd)) None = None); [|rewrite J; reflexivity].
  induction (oargs N nd) as [|a l IH]; [reflexivity|]. cbn [map fold_left]. rewrite absent_info by (apply H; now left). cbn [snd ginherit]. apply IH; [intros; apply H; now right|].
  cbn in E. apply Bool.orb_false_iff in E. apply E.
Qed.

(** arg_max and cross_corr2d have no derivative: if the variable occurs in an argument, derive
    throws once the arguments' gradients are made. *)
Lemma C69_arg_max_lemma :
  forall (T : Type) (N : num T) fresh use of_nat same (env : nat -> tens T) (k w : nat) axis a g,
    gleaf w a = true -> ggrad N fresh use of_nat same env w a = Ok g ->
    oderive N fresh use of_nat same env k w (OArgMax axis a) = Throw.
Proof.
  intros T N fresh use of_nat same env k w axis a g Hw Hg. unfold oderive. cbn [oargs existsb map fold_left]. rewrite Hw. cbn [orb]. unfold ggrad in Hg.
  assert (Te : gterminal (ginherit same None (snd (ginfo N fresh use of_nat same env w a))) = false).
  { destruct (snd _) as [[u l t]|]; [|reflexivity]. destruct l; reflexivity. }
  rewrite Te. cbn [all_ok]. rewrite Hg. reflexivity.
Qed.
Lemma C69_cross_corr_lemma :
  forall (T : Type) (N : num T) fresh use of_nat same (env : nat -> tens T) (k w : nat) d1 d2 a f,
    gleaf w a = true \/ gleaf w f = true ->
    (forall x, In x [a; f] -> exists g d, ggrad N fresh use of_nat same env w x = Ok g /\ gderive N fresh use of_nat same env w x = Ok d) ->
    oderive N fresh use of_nat same env k w (OCorr d1 d2 a f) = Throw.
Proof.
  intros T N fresh use of_nat same env k w d1 d2 a f Hw Hg. unfold oderive. cbn [oargs existsb map fold_left].
  assert (X : gleaf w a || (gleaf w f || false) = true) by (destruct Hw as [-> | ->]; [reflexivity|apply Bool.orb_true_r]). rewrite X.
  destruct (Hg a) as (ga & da & A1 & A2); [now left|]. destruct (Hg f) as (gf & df & F1 & F2); [right; now left|]. unfold ggrad, gderive in *.
  destruct (gterminal _); cbn [all_ok]; rewrite ?A1, ?A2, ?F1, ?F2; reflexivity.
Qed.

Section P.
Context (fresh : nat -> R) (use : bool) (of_nat : nat -> R) (gsame : @gexpr R -> @gexpr R -> bool).
Context (gsame_ok : forall a b, gsame a b = true -> a = b).
Notation gev := (geval Rnum fresh use of_nat).
Notation gi := (GroupModel.ginfo Rnum fresh use of_nat gsame).
Notation ov := (ovalue Rnum fresh use of_nat).
Notation od := (oderive Rnum fresh use of_nat gsame).

Lemma zero_info env w c : has_leaf w c = false -> gi env w (inj c) = (Ok (GConst (const_scalar (n_zero Rnum))), None).
Proof. intros H. apply absent_info. now rewrite leaf_inj. Qed.
Lemma same_value env w k x c : has_leaf w c = false -> gev (set_elem env w k x) (inj c) = gev env (inj c).
Proof. intros H. rewrite !geval_inj. apply eval_ext. intros v Hv. apply set_elem_other. intros ->. congruence. Qed.

Lemma belongs_same s c : length c = length s -> belongs s c <-> in_bounds s c.
Proof.
  intros L. split.
  - intros H. assert (G : forall s c, length c = length s -> belongs s c -> in_bounds s c); [|now apply G]. clear.
    induction s as [|d s IH]; intros [|x c] L H; try discriminate; constructor; [exact (H 0%nat)|]. apply IH; [now injection L|]. intros k. exact (H (S k)).
  - intros H. induction H as [|d x s c Hx H IH]; intros k; [destruct k; cbn; lia|]. destruct k as [|k]; [exact Hx|]. apply IH. now injection L.
Qed.

(** element i of what fit makes of src *)
Definition fitted (s s' : shape) (src : nat -> R) (i : nat) : R :=
  if belongsb s (coords s' i) then src (offset s (coords s' i)) else 0.
Lemma fit_value env e c s l s' other : is_fully_defined s = true -> is_fully_defined s' = true -> gev env e = Ok (s, l) -> length l = n_elems s -> gev env c = Ok (s', other) ->
  total (ov env (OFit e c)) = sumR (fitted s s' (fun j => nth j l 0)) (n_elems s').
Proof.
  intros F F' E L Ec. unfold ovalue. cbn [oargs map all_ok]. rewrite E, Ec. cbn [bind].
  destruct (C08_fit_node_lemma R Rnum fresh use of_nat s s' l other F F' L) as (d & Ed & Ld & H).
  transitivity (total (sem Rnum fresh use of_nat KFit [(s, l); (s', other)])); [reflexivity|]. transitivity (total (Ok (s', d))); [f_equal; exact Ed|]. cbn [total snd]. rewrite sum_list, Ld.
  pose proof F' as D. apply is_fully_defined_iff in D. apply sumR_ext. intros i Hi.
  assert (Ei : offset s' (coords s' i) = i) by (apply offset_coords_lt; [apply D|]; rewrite <- n_elems_prod by apply D; exact Hi).
  destruct (H (coords s' i)) as [H1 H2]; [apply coords_in_bounds; apply D|]. rewrite Ei in *. unfold fitted.
  destruct (belongsb s (coords s' i)) eqn:B.
  - apply belongsb_iff in B. now rewrite (nth_same _ _ _ _ (H1 B)).
  - apply nth_error_nth. apply H2. intros X. apply belongsb_iff in X. congruence.
Qed.

Lemma fit_deriv env w e c s s' other k : proper s env w e -> has_leaf w c = false -> gev env (inj c) = Ok (s', other) -> is_fully_defined s' = true -> length s' = length s ->
  exists t, od env k w (OFit (inj e) (inj c)) = Ok t /\ fits s t /\
    forall p, in_bounds s p ->
      derivable_pt_lim (fun x => total (gev (set_elem env w (offset s p) x) (inj e))) (at_ (env w) (offset s p)) (at_ t (offset s p)) /\
      (in_bounds s' p -> derivable_pt_lim (fun x => total (ov (set_elem env w (offset s p) x) (OFit (inj e) (inj c)))) (at_ (env w) (offset s p)) (at_ t (offset s p))) /\
      (~ in_bounds s' p -> derivable_pt_lim (fun x => total (ov (set_elem env w (offset s p) x) (OFit (inj e) (inj c)))) (at_ (env w) (offset s p)) 0).
Proof.
  intros P Hc Ec F' Lr. destruct (base fresh use of_nat gsame gsame_ok s env w e P) as (g & t & I & Dg & V & Ft & Q & Lt).
  pose proof P as (Fd & N1 & Hl & Hw & Es & Ln & Hr). exists t. split; [|split; [exact Ft|]].
  { unfold oderive. cbn [oargs existsb map fold_left]. rewrite leaf_inj, Hw. cbn [orb]. rewrite I, (zero_info env w c Hc). cbn [snd ginherit gterminal fst all_ok bind oback rd nth_error].
    now rewrite geval_inj. }
  intros p Hp. pose proof Fd as D. apply is_fully_defined_iff in D. pose proof F' as D'. apply is_fully_defined_iff in D'.
  set (k0 := offset s p). assert (Hk : (k0 < n_elems s)%nat) by (apply in_bounds_offset_lt; auto).
  split; [apply Lt; exact Hk|].
  assert (Fw : fits s (env w)) by (split; [congruence|]; split; [congruence|now left]).
  assert (Sok : forall a b : @expr R, gsame (inj a) (inj b) = true -> a = b) by (intros a b H; apply inj_one; now apply gsame_ok).
  destruct (C36_gradient_lemma fresh use (fun a b => gsame (inj a) (inj b)) Sok s env w e Fd Hl Fw Hr) as (g' & t' & E1 & E2 & _ & E4).
  assert (t' = t) as ->.
  { pose proof (derive_inj Rnum fresh use of_nat gsame env w e (leaves_axis w s env e Hl)) as X. rewrite Dg, E1 in X. cbn [rmap] in X. injection X as X.
    assert (Y : gev env (inj g) = gev env (inj g')) by now rewrite X. rewrite !geval_inj, V, E2 in Y. congruence. }
  set (el := fun x j => elem (eval Rnum fresh use (set_elem env w k0 x) e) j).
  assert (Tot : forall x, total (ov (set_elem env w k0 x) (OFit (inj e) (inj c))) = sumR (fitted s s' (el x)) (n_elems s')).
  { intros x. destruct (Q k0 x) as (l & X1 & X2). rewrite (fit_value _ (inj e) (inj c) s l s' other Fd F' X1 X2) by (rewrite same_value by exact Hc; exact Ec).
    apply sumR_ext. intros i Hi. unfold fitted. destruct (belongsb s (coords s' i)) eqn:B; [|reflexivity]. apply belongsb_iff in B.
    assert (Lc : length (coords s' i) = length s) by (rewrite <- Lr; apply in_bounds_length, coords_in_bounds, D').
    apply belongs_same in B; [|exact Lc]. assert (Ho : (offset s (coords s' i) < n_elems s)%nat) by (apply in_bounds_offset_lt; auto).
    rewrite geval_inj in X1. unfold el. rewrite X1. cbn [elem]. now rewrite (RbmTrainProofs.at_nth' (s, l) _ _ X2 Ho). }
  assert (Len : forall q, in_bounds s q -> length q = length s) by (intros q Hq; now apply in_bounds_length).
  set (D0 := fun i => if belongsb s (coords s' i) then (if (offset s (coords s' i) =? k0)%nat then at_ t k0 else 0) else 0).
  assert (Lim : derivable_pt_lim (fun x => total (ov (set_elem env w k0 x) (OFit (inj e) (inj c)))) (at_ (env w) k0) (sumR D0 (n_elems s'))).
  { apply (lim_ext (fun x => sumR (fun i => fitted s s' (el x) i) (n_elems s'))); [intros x; now rewrite Tot|]. apply (lim_sum (fun i x => fitted s s' (el x) i)). intros i Hi. unfold fitted, D0.
    destruct (belongsb s (coords s' i)) eqn:B; [|apply derivable_pt_lim_const]. apply belongsb_iff in B.
    assert (Lc : length (coords s' i) = length s) by (rewrite <- Lr; apply in_bounds_length, coords_in_bounds, D').
    apply belongs_same in B; [|exact Lc].
    destruct (Nat.eqb_spec (offset s (coords s' i)) k0) as [->|Hn].
    - exact (proj2 (E4 k0 Hk)).
    - apply (lim_ext (fct_cte (elem (eval Rnum fresh use env e) (offset s (coords s' i))))); [|apply derivable_pt_lim_const]. intros x. unfold fct_cte, el. symmetry.
      apply (C36_local_lemma fresh use s); auto; [congruence|apply in_bounds_offset_lt; auto]. }
  split; intros Hin; (eapply lim_val; [|exact Lim]).
  - assert (X : forall i, (i < n_elems s')%nat -> D0 i = (fun _ => at_ t k0) i * (if (i =? offset s' p)%nat then 1 else 0)).
    { intros i Hi. unfold D0. cbv beta.
      assert (Ei : offset s' (coords s' i) = i) by (apply offset_coords_lt; [apply D'|]; rewrite <- n_elems_prod by apply D'; exact Hi).
      assert (Lc : length (coords s' i) = length s) by (rewrite <- Lr; apply in_bounds_length, coords_in_bounds, D').
      destruct (Nat.eqb_spec i (offset s' p)) as [->|Hn].
      - rewrite (coords_offset s' p Hin). replace (belongsb s p) with true by (symmetry; apply belongsb_iff, belongs_same; auto). fold k0. rewrite Nat.eqb_refl. ring.
      - destruct (belongsb s (coords s' i)) eqn:B; [|ring]. apply belongsb_iff, belongs_same in B; [|exact Lc].
        destruct (Nat.eqb_spec (offset s (coords s' i)) k0) as [Eq|_]; [|ring]. exfalso. apply Hn.
        rewrite <- Ei. f_equal. rewrite <- (coords_offset s (coords s' i) B), <- (coords_offset s p Hp). now f_equal. }
    rewrite (sumR_ext _ _ _ X), (sumR_delta (fun _ => at_ t k0)); [reflexivity|]. apply in_bounds_offset_lt; auto.
  - apply sumR_zero. intros i Hi. unfold D0. destruct (belongsb s (coords s' i)) eqn:B; [|reflexivity].
    assert (Lc : length (coords s' i) = length s) by (rewrite <- Lr; apply in_bounds_length, coords_in_bounds, D').
    apply belongsb_iff, belongs_same in B; [|exact Lc]. destruct (Nat.eqb_spec (offset s (coords s' i)) k0) as [Eq|_]; [|reflexivity]. exfalso. apply Hin.
    replace p with (coords s' i); [apply coords_in_bounds, D'|]. rewrite <- (coords_offset s (coords s' i) B), <- (coords_offset s p Hp). now f_equal.
Qed.
(** the gradient of an elementwise expression, whether the variable occurs in it or not *)
Lemma side s env w e : is_fully_defined s = true -> leaves_fit s env e -> fits s (env w) -> (forall i, (i < n_elems s)%nat -> regular i (fun v => at_ (env v) i) e) ->
  exists g t, gi env w (inj e) = (Ok (inj g), None) /\ eval Rnum fresh use env g = Ok t /\ fits s t /\
    forall i, (i < n_elems s)%nat -> derivable_pt_lim (fun x => elem (gev (set_elem env w i x) (inj e)) i) (at_ (env w) i) (at_ t i).
Proof.
  intros F Hl Fw Hr.
  assert (Sok : forall a b : @expr R, gsame (inj a) (inj b) = true -> a = b) by (intros a b H; apply inj_one; now apply gsame_ok).
  destruct (C36_gradient_lemma fresh use (fun a b => gsame (inj a) (inj b)) Sok s env w e F Hl Fw Hr) as (g & t & E1 & E2 & E3 & E4).
  exists g, t. split.
  { rewrite (info_inj Rnum fresh use of_nat gsame env w e (leaves_axis w s env e Hl)). unfold inj_i.
    pose proof (elem_no_jac fresh use (fun a b => gsame (inj a) (inj b)) s env w e Hl) as Nj. unfold derive, derive_of in E1. rewrite Nj in *.
    match type of E1 with bind ?x _ = _ => destruct x eqn:E0; cbn [bind] in E1; try discriminate; injection E1 as -> end. reflexivity. }
  split; [exact E2|]. split; [exact E3|]. intros i Hi. apply (lim_ext (fun x => elem (eval Rnum fresh use (set_elem env w i x) e) i)); [intros x; now rewrite geval_inj|]. apply E4, Hi.
Qed.
Lemma fold_value s env op g t : op <> UAbs -> eval Rnum fresh use env g = Ok t -> fits s t ->
  exists u, eval Rnum fresh use env (fold_node Rnum op g) = Ok u /\ fits s u /\ forall i, (i < n_elems s)%nat -> at_ u i = meaning Rnum op (at_ t i).
Proof.
  intros Ho E Ft.
  assert (X : (exists c, g = EConst c) \/ fold_node Rnum op g = EUn op g) by (destruct g; eauto).
  destruct X as [[c ->]|X].
  - cbn [eval] in E. injection E as ->. cbn [fold_node]. eexists. split; [reflexivity|]. split; [now apply fits_map|]. intros i Hi. rewrite (at_map _ s) by auto. now rewrite const_fwd_lambda.
  - rewrite X. destruct (un_ok fresh use s env op g t E Ft) as (u & U1 & U2 & _ & U3). eauto.
Qed.
Lemma only_value s env g t x i : only (inj g) = Some x -> eval Rnum fresh use env g = Ok t -> fits s t -> at_ t i = x.
Proof.
  destruct g; cbn [inj only]; try discriminate. destruct t0 as [sh l]. cbn [eval]. intros H E (F & L & _). injection E as <-. cbn [fst snd] in *.
  destruct (Nat.eqb_spec (n_elems sh) 1) as [N1|]; [|discriminate]. rewrite N1 in L. destruct l as [|y [|z l]]; try discriminate. cbn in H. injection H as ->. reflexivity.
Qed.
Lemma comparison_elements s env w k e1 e2 compare :
  is_fully_defined s = true -> fits s (env w) -> leaves_fit s env e1 -> leaves_fit s env e2 -> (has_leaf w e1 = true \/ has_leaf w e2 = true) ->
  (forall i, (i < n_elems s)%nat -> regular i (fun v => at_ (env v) i) e1 /\ regular i (fun v => at_ (env v) i) e2) ->
  exists t, od env k w (OCond compare (inj e1) (inj e2)) = Ok t /\ fits s t /\
    forall i, (i < n_elems s)%nat -> exists d1 d2,
      derivable_pt_lim (fun x => elem (gev (set_elem env w i x) (inj e1)) i) (at_ (env w) i) d1 /\
      derivable_pt_lim (fun x => elem (gev (set_elem env w i x) (inj e2)) i) (at_ (env w) i) d2 /\
      at_ t i = if compare d1 d2 then 1 else 0.
Proof.
  intros F Fw H1 H2 Hw Hr.
  destruct (side s env w e1 F H1 Fw) as (g1 & t1 & I1 & V1 & F1 & D1); [intros i Hi; apply (Hr i Hi)|].
  destruct (side s env w e2 F H2 Fw) as (g2 & t2 & I2 & V2 & F2 & D2); [intros i Hi; apply (Hr i Hi)|].
  assert (G : exists t, od env k w (OCond compare (inj e1) (inj e2)) = Ok t /\ fits s t /\ forall i, (i < n_elems s)%nat -> at_ t i = if compare (at_ t1 i) (at_ t2 i) then 1 else 0).
  2:{ destruct G as (t & A & B & C). exists t. split; [exact A|]. split; [exact B|]. intros i Hi. exists (at_ t1 i), (at_ t2 i). auto. }
  unfold oderive. cbn [oargs existsb map fold_left]. rewrite !leaf_inj.
  assert (X : has_leaf w e1 || (has_leaf w e2 || false) = true) by (destruct Hw as [-> | ->]; [reflexivity|apply Bool.orb_true_r]). rewrite X.
  rewrite I1, I2. cbn [snd ginherit gterminal fst all_ok bind oback rd nth_error].
  destruct (only (inj g1)) as [x|] eqn:O1.
  { destruct (fold_value s env (UCondL x compare) g2 t2 ltac:(discriminate) V2 F2) as (u & U1 & U2 & U3). exists u.
    cbn [gunary bind fst snd]. rewrite fold_inj, geval_inj. split; [exact U1|]. split; [exact U2|]. intros i Hi. rewrite U3 by exact Hi. now rewrite (only_value s env g1 t1 x i O1 V1 F1). }
  destruct (only (inj g2)) as [y|] eqn:O2.
  { destruct (fold_value s env (UCondR compare y) g1 t1 ltac:(discriminate) V1 F1) as (u & U1 & U2 & U3). exists u.
    cbn [gunary bind fst snd]. rewrite fold_inj, geval_inj. split; [exact U1|]. split; [exact U2|]. intros i Hi. rewrite U3 by exact Hi. now rewrite (only_value s env g2 t2 y i O2 V2 F2). }
  rewrite group_inj. unfold ovalue. cbn [oargs map all_ok]. rewrite !geval_inj, V1, V2. cbn [bind].
  destruct (bin_gen fresh s (fun x y => bool_T Rnum (compare x y)) t1 t2 F1 F2) as (u & U1 & U2 & _ & _ & U3). exists u.
  split. { transitivity (r <- Ok u ;; Ok r); [|reflexivity]. replace (sem Rnum fresh use of_nat (KCond String.EmptyString compare) [t1; t2]) with (Ok u) by (symmetry; exact U1).
    cbn [bind fst snd geval]. now rewrite Nat.eqb_refl. }
  split; [exact U2|]. intros i Hi. now rewrite U3.
Qed.
End P.

(** fit: the gradient is that of its first argument. Where the variable's position p exists in
    the watched shape it is the derivative of the sum of the result's elements. Finding: where
    fit cuts the position off, that derivative is zero, and the gradient is still the
    argument's. *)
Lemma C69_fit_lemma :
  forall fresh use of_nat gsame, (forall a b : @gexpr R, gsame a b = true -> a = b) ->
  forall (s s' : shape) (env : nat -> tens R) (w k : nat) (e watch : expr) other,
    proper s env w e -> has_leaf w watch = false ->
    geval Rnum fresh use of_nat env (inj watch) = Ok (s', other) -> is_fully_defined s' = true -> length s' = length s ->
    let node := OFit (inj e) (inj watch) in
    exists t, oderive Rnum fresh use of_nat gsame env k w node = Ok t /\ fits s t /\
      forall p, in_bounds s p ->
        derivable_pt_lim (fun x => total (geval Rnum fresh use of_nat (set_elem env w (offset s p) x) (inj e))) (at_ (env w) (offset s p)) (at_ t (offset s p)) /\
        (in_bounds s' p -> derivable_pt_lim (fun x => total (ovalue Rnum fresh use of_nat (set_elem env w (offset s p) x) node)) (at_ (env w) (offset s p)) (at_ t (offset s p))) /\
        (~ in_bounds s' p -> derivable_pt_lim (fun x => total (ovalue Rnum fresh use of_nat (set_elem env w (offset s p) x) node)) (at_ (env w) (offset s p)) 0).
Proof. intros fresh use of_nat gsame Hs s s' env w k e watch other P Hc Ec F' Lr. exact (fit_deriv fresh use of_nat gsame Hs env w e watch s s' other k P Hc Ec F' Lr). Qed.

Lemma one_zero : n_eqb Rnum (n_one Rnum) (n_zero Rnum) = false.
Proof. apply Reqb_no. cbn. lra. Qed.
Lemma zero_one : n_eqb Rnum (n_zero Rnum) (n_one Rnum) = false.
Proof. apply Reqb_no. cbn. lra. Qed.
Lemma one_one : n_eqb Rnum (n_one Rnum) (n_one Rnum) = true.
Proof. apply Reqb_yes. Qed.
Lemma clip_one fresh use of_nat n cap : sem Rnum fresh use of_nat (KClipNorm cap) [([1%nat], [n]); ([1%nat], [n])] = Ok ([1%nat], [n * cap / n]).
Proof. reflexivity. Qed.

(** clip_norm. Finding: the gradient with respect to its argument, a variable, is the cap for
    every value whose first element is not zero; for a variable of one element the result is
    constant on each side of zero, and for larger ones the derivative with respect to all but
    the first element is the cap divided by the first element's absolute value. *)
Lemma C69_clip_norm_refuted_lemma :
  forall fresh use of_nat gsame, (forall a b : @gexpr R, gsame a b = true -> a = b) ->
  forall (env : nat -> tens R) (w k n : nat) (x cap : R) (l : list R),
    k <> w -> 0 < cap -> x <> 0 -> env w = ([S n], x :: l) -> length l = n ->
    oderive Rnum fresh use of_nat gsame env k w (OClip cap (GVar w)) = Ok ([1%nat], [cap]) /\
    (n = 0%nat -> derivable_pt_lim (fun r => total (ovalue Rnum fresh use of_nat (set_elem env w 0 r) (OClip cap (GVar w)))) x 0) /\
    (forall i, (0 < i <= n)%nat ->
       derivable_pt_lim (fun r => total (ovalue Rnum fresh use of_nat (set_elem env w i r) (OClip cap (GVar w)))) (at_ (env w) i) (cap / Rabs x)).
Proof.
  intros fresh use of_nat gsame Hs env w k n x cap l Hk Hc Hx Ew Ln.
  assert (Nn : forall e a m z ys, geval Rnum fresh use of_nat e a = Ok (m, z :: ys) -> geval Rnum fresh use of_nat e (GNorm a) = Ok ([1%nat], [Rabs z])).
  { intros e a m z ys E. cbn [geval]. rewrite E. exact (C26_l2norm_node_refuted_lemma fresh m z ys). }
  assert (Nv : forall e y m, e w = (m, y) -> forall z ys, y = z :: ys -> geval Rnum fresh use of_nat e (GNorm (GVar w)) = Ok ([1%nat], [Rabs z])).
  { intros e y m E z ys ->. apply (Nn e (GVar w) m z ys). cbn [geval]. now rewrite E. }
  split; [|split].
  - unfold oderive. cbn [oargs gnorm existsb map fold_left ginfo gleaf fst snd]. rewrite Nat.eqb_refl. cbn [orb snd fst ginherit gterminal bind gnorm const_scalar fold_left all_ok].
    cbn [oback rd nth_error bind gnorm grouping].
    assert (Hv : ovalue Rnum fresh use of_nat env (OClip cap (GNorm (GVar w))) = Ok ([1%nat], [cap])).
    { pose proof (Nv env (x :: l) [S n] Ew x l eq_refl) as E1. pose proof (Nn env _ _ _ _ E1) as E2. rewrite Rabs_Rabsolu in E2.
      unfold ovalue. cbn [oargs gnorm map all_ok]. rewrite E2, E1. cbn [bind]. etransitivity; [apply (clip_one fresh use of_nat)|].
      do 3 f_equal. field. now apply Rabs_no_R0. }
    rewrite Hv. cbn [bind].
    assert (X : gbinary Rnum gsame BMul (GConst ([1%nat], [0 + 1 * 1])) (GVar k) = Ok (GVar k)).
    { replace (0 + 1 * 1) with 1 by ring. change (GConst ([1%nat], [1])) with (GConst (const_scalar (n_one Rnum))).
      assert (G : gsame (GConst (const_scalar (n_one Rnum))) (GVar k) = false) by (destruct (gsame (GConst (const_scalar (n_one Rnum))) (GVar k)) eqn:G; [apply Hs in G; discriminate|reflexivity]).
      unfold gbinary. cbn [grouping ghelper]. rewrite G. cbn [gview cview_of]. unfold const_is. cbn [snd const_scalar]. rewrite zero_one. change (one_elem (const_scalar (n_one Rnum))) with true. cbn [gunary]. rewrite zero_one, one_one. reflexivity. }
    change (GConst (const_scalar (n_add Rnum (n_zero Rnum) (n_mul Rnum (n_one Rnum) (n_one Rnum))))) with (GConst (T := R) ([1%nat], [0 + 1 * 1])). rewrite X. cbn [bind fst snd geval]. now rewrite Nat.eqb_refl.
  - intros ->. destruct l; [|discriminate].
    apply (lim_ext_loc (fct_cte (x * cap / Rabs x)) _ x 0 (Rabs x)); [now apply Rabs_pos_lt| |apply derivable_pt_lim_const].
    intros r Hr. unfold fct_cte. unfold ovalue. cbn [oargs gnorm map all_ok].
    assert (Es : set_elem env w 0 r w = ([1%nat], [r])) by (unfold set_elem; rewrite Nat.eqb_refl, Ew; reflexivity).
    rewrite (Nv (set_elem env w 0 r) [r] [1%nat] Es r [] eq_refl). cbn [geval bind]. rewrite Es. cbn [bind].
    change (x * cap / Rabs x = r * cap / Rabs r + 0).
    destruct (Rle_or_lt 0 x) as [Px|Px].
    + assert (0 < r) by (rewrite (Rabs_pos_eq x) in Hr by exact Px; apply Rabs_def2 in Hr; lra). rewrite !Rabs_pos_eq by lra. field. lra.
    + assert (r < 0) by (rewrite (Rabs_left x) in Hr by exact Px; apply Rabs_def2 in Hr; lra). rewrite !Rabs_left by lra. field. lra.
  - intros i Hi. destruct i as [|i]; [lia|].
    assert (Es : forall r, set_elem env w (S i) r w = ([S n], x :: set_nth i r l)).
    { intros r. unfold set_elem. rewrite Nat.eqb_refl, Ew. cbn [fst snd]. destruct l; [cbn in Ln; lia|reflexivity]. }
    assert (V : forall r, ovalue Rnum fresh use of_nat (set_elem env w (S i) r) (OClip cap (GVar w)) = Ok ([S n], map (fun y => y * cap / Rabs x) (x :: set_nth i r l))).
    { intros r. unfold ovalue. cbn [oargs gnorm map all_ok]. rewrite (Nv _ _ _ (Es r) _ _ eq_refl). cbn [geval bind]. rewrite Es. cbn [bind].
      assert (D : is_fully_defined [S n] = true) by reflexivity. assert (En : n_elems [S n] = S n) by (cbn; lia).
      pose proof (C26_clip_norm_node_refuted_lemma fresh [S n] x (set_nth i r l) cap Hc D) as E. rewrite En in E.
      specialize (E ltac:(cbn [length]; now rewrite length_set_nth, Ln) ltac:(lia)). unfold clip_norm in E. cbn [n_ltb n_zero Rnum] in E. rewrite (proj2 (Rltb_iff 0 cap) Hc) in E. cbn [assert_ bind] in E.
      rewrite C26_l2norm_node_refuted_lemma in E. cbn [bind value] in E. exact E. }
    assert (Ea : at_ (env w) (S i) = nth i l 0) by (rewrite Ew; unfold at_; cbn [snd]; destruct l; [cbn in Ln; lia|reflexivity]). rewrite Ea.
    set (K := cap / Rabs x).
    apply (lim_ext (fun r => (fold_right Rplus 0 (map (fun y => y * K) (x :: l)) - nth i l 0 * K) + K * id r)).
    + intros r. rewrite V. cbn [total snd map fold_right].
      assert (G : forall m (q : list R), (m < length q)%nat -> fold_right Rplus 0 (map (fun y => y * K) (set_nth m r q)) = fold_right Rplus 0 (map (fun y => y * K) q) - nth m q 0 * K + r * K).
      { induction m as [|m IH]; intros [|a q] Hm; cbn [length] in Hm; try lia; cbn [set_nth map fold_right nth]; [ring|]. rewrite IH by lia. ring. }
      assert (H1 : forall q, map (fun y => y * cap / Rabs x) q = map (fun y => y * K) q) by (intros q; apply map_ext; intros y; unfold K; unfold Rdiv; ring).
      rewrite H1, G by lia. unfold id, K, Rdiv. ring.
    + eapply lim_val; [|apply derivable_pt_lim_plus; [apply derivable_pt_lim_const|apply derivable_pt_lim_scal, derivable_pt_lim_id]]. ring.
Qed.

(** A comparison of two different variables: the gradient is 1 or 0 according to the comparison
    of the constants 1 and 0, whatever the variables hold. *)
Lemma C69_comparison_lemma :
  forall (T : Type) (N : num T) fresh use of_nat same (env : nat -> tens T) (w v k : nat) (compare : T -> T -> bool),
    v <> w -> oderive N fresh use of_nat same env k w (OCond compare (GVar w) (GVar v)) = Ok ([1%nat], [if compare (n_one N) (n_zero N) then n_one N else n_zero N]).
Proof.
  intros T N fresh use of_nat same env w v k compare Hv. unfold oderive. cbn [oargs existsb map fold_left ginfo gleaf fst snd]. rewrite Nat.eqb_refl.
  destruct (Nat.eqb_spec v w); [contradiction|]. reflexivity.
Qed.
(** In general the gradient of a comparison of two elementwise expressions, at least one of
    which has the variable, is at every element the comparison of the derivatives of the two
    sides there, 1 if it holds and 0 otherwise. *)
Lemma C69_comparison_elements_lemma :
  forall fresh use of_nat gsame, (forall a b : @gexpr R, gsame a b = true -> a = b) ->
  forall (s : shape) (env : nat -> tens R) (w k : nat) (e1 e2 : expr) (compare : R -> R -> bool),
    is_fully_defined s = true -> fits s (env w) -> leaves_fit s env e1 -> leaves_fit s env e2 -> (has_leaf w e1 = true \/ has_leaf w e2 = true) ->
    (forall i, (i < n_elems s)%nat -> regular i (fun v => at_ (env v) i) e1 /\ regular i (fun v => at_ (env v) i) e2) ->
    exists t, oderive Rnum fresh use of_nat gsame env k w (OCond compare (inj e1) (inj e2)) = Ok t /\ fits s t /\
      forall i, (i < n_elems s)%nat -> exists d1 d2,
        derivable_pt_lim (fun x => elem (geval Rnum fresh use of_nat (set_elem env w i x) (inj e1)) i) (at_ (env w) i) d1 /\
        derivable_pt_lim (fun x => elem (geval Rnum fresh use of_nat (set_elem env w i x) (inj e2)) i) (at_ (env w) i) d2 /\
        at_ t i = if compare d1 d2 then 1 else 0.
Proof. intros fresh use of_nat gsame Hs s env w k e1 e2 compare F Fw H1 H2 Hw Hr. exact (comparison_elements fresh use of_nat gsame Hs s env w k e1 e2 compare F Fw H1 H2 Hw Hr). Qed.

(** Finding: so the gradients of != and of any other comparison that holds of 1 and 0 are 1,
    while the result does not change where the comparison does not: the derivative is 0. *)
Lemma C69_comparison_refuted_lemma :
  forall fresh use of_nat gsame (env : nat -> tens R) (w v k i : nat) (compare : R -> R -> bool) (s : shape) xs ys,
    v <> w -> is_fully_defined s = true -> n_elems s <> 1%nat -> env w = (s, xs) -> env v = (s, ys) -> length xs = n_elems s -> length ys = n_elems s -> (i < n_elems s)%nat ->
    (exists d, 0 < d /\ forall r, Rabs (r - nth i xs 0) < d -> compare r (nth i ys 0) = compare (nth i xs 0) (nth i ys 0)) ->
    derivable_pt_lim (fun r => total (ovalue Rnum fresh use of_nat (set_elem env w i r) (OCond compare (GVar w) (GVar v)))) (at_ (env w) i) 0 /\
    (compare 1 0 = true -> oderive Rnum fresh use of_nat gsame env k w (OCond compare (GVar w) (GVar v)) = Ok ([1%nat], [1])).
Proof.
  intros fresh use of_nat gsame env w v k i compare s xs ys Hv F N1 Ew Ev Lx Ly Hi (d & Pd & Hd). split.
  2:{ intros H. rewrite C69_comparison_lemma by exact Hv. cbn [n_one n_zero Rnum]. now rewrite H. }
  assert (Wf : forall l, length l = n_elems s -> wf (T := R) (s, l)) by (intros l Hl; split; auto).
  set (f := fun x y => bool_T Rnum (compare x y)).
  assert (Bs : bshape s s = s) by (unfold bshape; destruct (Nat.eqb_spec (n_elems s) 1); [contradiction|reflexivity]).
  assert (Br : forall l : list R, length l = n_elems s -> broadcast (n_elems s) l = l) by (intros [|a [|b l]] Hl; [reflexivity|cbn in Hl; congruence|reflexivity]).
  assert (Upd : forall r, (fst (env w), match snd (env w) with [_] => [r] | l => set_nth i r l end) = (s, set_nth i r xs)).
  { intros r. rewrite Ew. cbn [fst snd]. destruct xs as [|a [|b xs]]; [reflexivity|cbn in Lx; congruence|reflexivity]. }
  assert (V : forall r, ovalue Rnum fresh use of_nat (set_elem env w i r) (OCond compare (GVar w) (GVar v)) = Ok (s, map2 f (set_nth i r xs) ys)).
  { intros r. unfold ovalue. cbn [oargs map all_ok geval bind]. unfold set_elem. rewrite Nat.eqb_refl, Upd. destruct (Nat.eqb_spec v w); [contradiction|]. rewrite Ev. cbn [bind sem].
    destruct (binary_ok fresh f (s, set_nth i r xs) (s, ys)) as [E _]; [apply Wf; now rewrite length_set_nth|now apply Wf|]. cbn [fst snd] in E. rewrite Bs, !Br in E by (rewrite ?length_set_nth; auto).
    apply E. right. right. now left. }
  assert (Ea : at_ (env w) i = nth i xs 0) by (rewrite Ew; unfold at_; cbn [snd]; destruct xs as [|a [|b xs]]; [reflexivity|cbn in Lx; congruence|reflexivity]). rewrite Ea.
  apply (lim_ext_loc (fct_cte (total (Ok (s, map2 f (set_nth i (nth i xs 0) xs) ys)))) _ _ 0 d Pd); [|apply derivable_pt_lim_const].
  intros r Hr. rewrite V. unfold fct_cte. do 3 f_equal. apply nth_error_ext_lt; [rewrite !map2_length, !length_set_nth; reflexivity|].
  intros j Hj. rewrite map2_length, length_set_nth in Hj. rewrite !(map2_nth_error f _ _ j 0 0) by (rewrite ?length_set_nth; lia). f_equal. unfold f. f_equal.
  rewrite !nth_set_nth. destruct (Nat.eqb_spec i j) as [->|]; [|reflexivity]. destruct (Nat.ltb_spec j (length xs)); [|lia]. cbn [andb]. symmetry. now apply Hd.
Qed.

(** sin(x) of shape [3, 2] fitted to a node of shape [2, 2] meets the hypotheses, with
    positions kept and cut off; the variable (3, -4) and the cap 2; != of (3, -4) and (5, 6) *)
Lemma C69_nonvacuous_lemma :
  let env := fun v : nat => match v with 0%nat => ([3; 2]%nat, [0; 1; 2; 3; 4; 5]) | 1%nat => ([2; 2]%nat, [7; 7; 7; 7]) | 2%nat => ([2%nat], [3; -4]) | _ => ([2%nat], [5; 6]) end : tens R in
  let gsame := fun _ _ : @gexpr R => false in
  (forall a b, gsame a b = true -> a = b) /\
  proper [3; 2]%nat env 0 (EUn USin (EVar 0)) /\ has_leaf 0 (@EVar R 1) = false /\ geval Rnum (fun _ => 0) false INR env (inj (EVar 1)) = Ok ([2; 2]%nat, [7; 7; 7; 7]) /\
  in_bounds [3; 2]%nat [1; 0]%nat /\ in_bounds [2; 2]%nat [1; 0]%nat /\ in_bounds [3; 2]%nat [2; 0]%nat /\ ~ in_bounds [2; 2]%nat [2; 0]%nat /\
  oderive Rnum (fun _ => 0) false INR gsame env 9 2 (OClip 2 (GVar 2)) = Ok ([1%nat], [2]) /\
  (exists d, 0 < d /\ forall r, Rabs (r - 3) < d -> negb (Reqb r 5) = negb (Reqb 3 5)) /\ negb (Reqb 1 0) = true /\
  ggrad Rnum (fun _ => 0) false INR gsame env 2 (GVar 2) = Ok (GConst ([1%nat], [1])) /\
  (fits [3; 2]%nat (env 0%nat) /\ leaves_fit [3; 2]%nat env (EUn UExp (EVar 0)) /\ forall i, regular i (fun v => at_ (env v) i) (EUn UExp (EVar 0))).
Proof.
  intros env gsame. cbv zeta. split; [discriminate|]. split.
  { split; [reflexivity|]. split; [discriminate|]. split; [split; [reflexivity|]; split; [reflexivity|now left]|]. split; [reflexivity|]. split; [reflexivity|]. split; [reflexivity|]. intros i _. split; exact I. }
  split; [reflexivity|]. split; [reflexivity|]. split; [repeat constructor; lia|]. split; [repeat constructor; lia|]. split; [repeat constructor; lia|].
  split. { intros H. inversion H as [|? ? ? ? H1 _]; subst. lia. }
  split. { destruct (C69_clip_norm_refuted_lemma (fun _ => 0) false INR gsame ltac:(discriminate) env 2%nat 9%nat 1%nat 3 2 [-4] ltac:(discriminate) ltac:(lra) ltac:(lra) eq_refl eq_refl) as [E _]. exact E. }
  assert (Ne : forall x y, x <> y -> Reqb x y = false) by (intros x y H; destruct (Reqb x y) eqn:E; [apply Reqb_iff in E; contradiction|reflexivity]).
  split. { exists 1. split; [lra|]. intros r Hr. apply Rabs_def2 in Hr. rewrite !Ne by lra. reflexivity. }
  split; [now rewrite Ne by lra|]. split; [reflexivity|].
  assert (Fx : fits [3; 2]%nat (env 0%nat)) by (split; [reflexivity|]; split; [reflexivity|now left]).
  split; [exact Fx|]. split; [exact Fx|]. intros i. split; exact I.
Qed.
