(** The gradient constructed for minus the mean of the log of a softmax. *)
From Coq Require Import String Reals Lra Lia.
From Verif Require Import Common ShapeModel ShapeProofs ShapeSpec TransformSpec TransformModel TransformProofs TransformLaws MatmulSpec ElemModel ElemProofs NumSpec RealNum ElemLaws GradModel GradSpec GradProofs MatrixSpec MatrixProofs MlpModel MlpProofs MlpLaws CopyLaws NetSpec NetProofs NetMlpProofs.
Local Open Scope list_scope.
Local Open Scope R_scope.

Section Soft.
Context (fresh : nat -> R) (use : bool) (same : @expr R -> @expr R -> bool).
Context (same_ok : forall a b, same a b = true -> a = b).
Context (env : nat -> tens R) (w nw : nat) (nw_pos : (0 < nw)%nat).
Context (env0 : forall k v, (k < nw)%nat -> set_elem env w k (at_ (env w) k) v = env v).
Notation ev := (eval Rnum fresh use env).
Notation val := (nval fresh use env).
Notation mat c r := (ismat fresh use env c r).
Notation fit c r := (gfit fresh use [c; r] env).
Notation nfo := (info Rnum fresh use same env w).
Notation Inv := (inv fresh use same env w nw).
Notation zero_node := (EConst (const_scalar 0)).

Definition ez (z : @expr R) := EUn UExp z.
Definition sm (z : @expr R) := EBin BDiv (ez z) (ESum (ez z)).
Definition lg (z : @expr R) := EUn ULog (sm z).

Lemma differ a b : a <> b -> same a b = false.
Proof. intros H. destruct (same a b) eqn:E; [apply same_ok in E; contradiction|reflexivity]. Qed.
Lemma sumR_pos f n : (0 < n)%nat -> (forall i, (i < n)%nat -> 0 < f i) -> 0 < sumR f n.
Proof.
  intros Hn H. destruct n as [|n]; [lia|]. clear Hn. induction n as [|n IH]; [cbn; specialize (H 0%nat ltac:(lia)); lra|].
  change (sumR f (S (S n))) with (sumR f (S n) + f (S n)). specialize (IH (fun i Hi => H i ltac:(lia))). specialize (H (S n) ltac:(lia)). lra.
Qed.

Section Z.
Context (c r : nat) (z : @expr R) (Mz : mat c r z) (Fz : fit c r z).
Notation S := (sumR (fun j => exp (val j z)) (c * r)).
Notation p i := (exp (val i z) / S).
Lemma cr_pos : (0 < c * r)%nat.
Proof. apply ismat_pos in Mz. nia. Qed.
Lemma S_pos : 0 < S.
Proof. apply sumR_pos; [apply cr_pos|]. intros. apply exp_pos. Qed.
Lemma ez_mat : mat c r (ez z).
Proof. now apply un_mat. Qed.
Lemma ez_val i : (i < c * r)%nat -> val i (ez z) = exp (val i z).
Proof. intros H. unfold ez. rewrite (val_un fresh use [c; r]); [reflexivity|exact Fz|cbn; lia]. Qed.
Lemma S_node a : mat c r a -> fit c r (ESum a) /\ forall i, val i (ESum a) = sumR (fun j => val j a) (c * r).
Proof.
  intros M. destruct (sum_node fresh use 1 (le_n 1) env c r a M) as (t & E & St & Lt & V). split.
  - exists t. split; [exact E|]. split; [rewrite St; reflexivity|]. split; [rewrite St, Lt; reflexivity|]. right. rewrite St. reflexivity.
  - intros i. unfold nval at 1. rewrite E. apply V.
Qed.
Lemma sm_fit : fit c r (sm z).
Proof. split; [exact Fz|]. apply S_node, ez_mat. Qed.
Lemma sm_mat : mat c r (sm z).
Proof. destruct (S_node _ ez_mat) as [(t & E & F) _]. now apply (bin_mat_l _ _ _ _ _ _ _ _ t); [apply ez_mat| |]. Qed.
Lemma S_val i : val i (ESum (ez z)) = S.
Proof. rewrite (proj2 (S_node _ ez_mat)). apply sumR_ext. intros j Hj. now apply ez_val. Qed.
Lemma sm_val i : (i < c * r)%nat -> val i (sm z) = p i.
Proof.
  intros H. unfold sm. rewrite (val_bin fresh use [c; r]); [|exact Fz|apply S_node, ez_mat|cbn; lia]. cbn [bmeaning]. rewrite ez_val, S_val by exact H. reflexivity.
Qed.
Lemma sm_pos i : (i < c * r)%nat -> 0 < val i (sm z).
Proof. intros H. rewrite sm_val by exact H. apply Rdiv_lt_0_compat; [apply exp_pos|apply S_pos]. Qed.
Lemma lg_mat : mat c r (lg z).
Proof. apply un_mat, sm_mat. Qed.
Lemma lg_val i : (i < c * r)%nat -> val i (lg z) = ln (p i).
Proof. intros H. unfold lg. rewrite (val_un fresh use [c; r]); [|apply sm_fit|cbn; lia]. rewrite sm_val by exact H. reflexivity. Qed.
End Z.

Section G.
Context (c r : nat) (z g u : @expr R) (L : list (@jentry R)) (T : nat -> nat -> R) (H : Inv c r z g u L T) (G : gd fresh use env c r g) (Nz : nc z).
Notation S := (sumR (fun j => exp (val j z)) (c * r)).
Notation p i := (exp (val i z) / S).
Notation Full := (full fresh use env c r).

Lemma lg_info : exists n1 d1, let gl := EBin BDiv (EBin BDiv n1 d1) (sm z) in
  nfo (lg z) = (Ok gl, jac_of u L) /\ mat c r gl /\ fit c r gl /\ forall i, (i < c * r)%nat -> val i gl = (1 - p i) * val i g.
Proof.
  pose proof (inv_mat _ _ _ _ _ _ nw_pos env0 _ _ _ _ _ _ _ H) as Mz. pose proof (inv_fit _ _ _ _ _ _ nw_pos env0 _ _ _ _ _ _ _ H) as Fz.
  pose proof (cr_pos c r z Mz) as Cr.
  assert (Np : (0 < n_elems [c; r])%nat) by (cbn; lia).
  destruct (S_node c r _ (ez_mat c r z Mz)) as [FS _]. pose proof (S_val c r z Mz Fz) as VS.
  (* exp *)
  destruct (inv_un fresh use same same_ok env w nw nw_pos env0 c r u L T UExp z g H (fun _ _ => I)) as (g1 & E1 & H1 & V1).
  assert (B1 : full fresh use env c r g1).
  { cbn [back_unary mk_unary bind] in E1. rewrite (fold_nc UExp z Nz) in E1. cbn [bind] in E1.
    destruct (gd_times fresh use same same_ok env c r g (ez z) G) as (g' & E' & F' & _); [split; [now apply nc_un|split; [now apply un_mat|discriminate]]|exact Fz|].
    unfold ez in E'. rewrite E' in E1. injection E1 as <-. exact F'. }
  pose proof (i_g _ _ _ _ _ _ _ _ _ _ _ _ _ H1) as F1. pose proof (i_info _ _ _ _ _ _ _ _ _ _ _ _ _ H1) as I1. pose proof (i_leaf _ _ _ _ _ _ _ _ _ _ _ _ _ H1) as L1. pose proof (i_uid _ _ _ _ _ _ _ _ _ _ _ _ _ H1) as U1.
  (* the sum passes the gradient on *)
  assert (I2 : nfo (ESum (ez z)) = (Ok g1, jac_of u L)).
  { cbn [info]. unfold ez. rewrite I1. cbn [fst snd]. rewrite inherit_jac, term_jac, L1. reflexivity. }
  (* the quotient *)
  destruct (gives_back_binary fresh use [c; r] env same same_ok Np BDiv (ez z) (ESum (ez z)) g1 g1 Fz FS F1 F1) as (g2 & E2 & F2 & V2).
  { intros _ i _. rewrite VS. pose proof (S_pos c r z Mz). lra. }
  assert (I3 : nfo (sm z) = (Ok g2, jac_of u L)).
  { unfold sm. cbn [info]. cbn [info] in I2. unfold ez in *. rewrite I2, I1. cbn [fst snd].
    replace (inherit same (inherit same None (jac_of u L)) (jac_of u L)) with (jac_of u L).
    2: { rewrite inherit_jac. destruct U1 as [U1|U1]; [symmetry; now apply inherit_twice|subst L; reflexivity]. }
    rewrite term_jac, L1. cbn [orb bind]. now rewrite E2. }
  assert (G2 : exists n1 d1, g2 = EBin BDiv n1 d1 /\ mat c r g2 /\ n1 <> ez z).
  { cbn [back_binary] in E2.
    assert (X1 : mk_binary Rnum same BMul g1 (ESum (ez z)) = Ok (EBin BMul g1 (ESum (ez z)))).
    { destruct (times_nc same same_ok g1 (ESum (ez z)) (proj1 B1) I) as [[Eq _]|X]; [|exact X]. exfalso.
      cbn [back_unary mk_unary bind] in E1. rewrite (fold_nc UExp z Nz) in E1. cbn [bind] in E1. subst g1.
      assert (Nx : nc (EUn UExp z)) by (now apply nc_un; [|discriminate]).
      destruct (proj2 G) as [Hg|(v & Hv & Hg)].
      - destruct (times_nc same same_ok g (EUn UExp z) (proj1 Hg) Nx) as [[_ Y]|Y]; rewrite Y in E1; discriminate E1.
      - subst g. cbn [mk_binary] in E1. rewrite differ in E1 by discriminate. cbn [cview_of] in E1. rewrite scalar_not_zero in E1 by exact Hv. replace (one_elem (const_scalar v)) with true in E1 by reflexivity. cbn [const_scalar snd] in E1.
        destruct (unary_nc (UMulL v) (EUn UExp z) Nx Hv) as [Y|[Y|[_ Y]]]; rewrite Y in E1; [discriminate E1| |discriminate E1]. rewrite mk_neg_nc in E1 by (auto; discriminate). discriminate E1. }
    assert (X2 : exists y, mk_binary Rnum same BMul g1 (ez z) = Ok y /\ nc y /\ mat c r y /\ fit c r y /\ forall s, y <> EBin BMul g1 (ESum s)).
    { destruct (times_nc same same_ok g1 (ez z) (proj1 B1)) as [[Eq X]|X]; [destruct z; exact I| |].
      - exists (EUn (UPow 2) g1). split; [exact X|]. split; [apply nc_un; [apply B1|discriminate]|]. split; [apply un_mat; exact (proj1 (proj2 B1))|]. split; [exact F1|discriminate].
      - exists (EBin BMul g1 (ez z)). split; [exact X|]. split; [exact I|]. split; [|split; [split; assumption|]].
        + destruct (ismat_ev _ _ _ _ _ _ (ez_mat c r z Mz)) as (t & Et & Ft). apply (bin_mat_l _ _ _ _ _ _ _ _ t); auto. exact (proj1 (proj2 B1)).
        + intros s [=]. }
    destruct X2 as (y & X2 & Ny & My & Fy & Dy). rewrite X1, X2 in E2. cbn [bind] in E2.
    assert (X3 : mk_binary Rnum same BSub (EBin BMul g1 (ESum (ez z))) y = Ok (EBin BSub (EBin BMul g1 (ESum (ez z))) y)).
    { cbn [mk_binary]. rewrite differ by (intros Eq; now apply (Dy (ez z))). cbn [cview_of]. now rewrite (cview_nonconst y (nc_nonconst _ Ny)). }
    rewrite X3 in E2. cbn [bind] in E2.
    set (n1 := EBin BSub (EBin BMul g1 (ESum (ez z))) y) in *.
    assert (X4 : exists d, mk_binary Rnum same BMul (ESum (ez z)) (ESum (ez z)) = Ok d /\ nc d /\ d <> n1 /\ fit c r d).
    { destruct (square_nc same same_ok (ESum (ez z)) I) as (d & Ed & Nd & Dd). exists d. split; [exact Ed|]. split; [exact Nd|].
      destruct Dd as [-> | ->]; (split; [discriminate|]); [exact FS|split; exact FS]. }
    destruct X4 as (d & X4 & Nd & Dd & Fd). rewrite X4 in E2. cbn [bind mk_binary] in E2. rewrite differ in E2 by auto. rewrite (cview_nonconst d (nc_nonconst _ Nd)) in E2.
    cbn [cview_of n1] in E2. injection E2 as <-. exists n1, d. split; [reflexivity|]. split; [|discriminate].
    assert (Mx : mat c r (EBin BMul g1 (ESum (ez z)))) by (destruct FS as (t & Et & Ft); apply (bin_mat_l _ _ _ _ _ _ _ _ t); [exact (proj1 (proj2 B1))|exact Et|exact Ft]).
    assert (Mn : mat c r n1) by (destruct (ismat_ev _ _ _ _ _ _ My) as (t & Et & Ft); now apply (bin_mat_l _ _ _ _ _ _ _ _ t)).
    destruct (gfit_ev _ _ _ _ d Fd) as (t & Et & Ft). now apply (bin_mat_l _ _ _ _ _ _ _ _ t). }
  destruct G2 as (n1 & d1 & Eg & M2 & Dn).
  (* the log *)
  assert (Sl : all_smooth fresh use [c; r] env ULog (sm z)) by (intros i Hi; apply (sm_pos c r z Mz Fz); cbn in Hi; lia).
  destruct (gives_back_unary fresh use [c; r] env same same_ok Np ULog (sm z) g2 (sm_fit c r z Mz Fz) F2 Sl) as (g3 & E3 & F3 & V3).
  exists n1, d1. cbn zeta. rewrite <- Eg.
  assert (E3' : g3 = EBin BDiv g2 (sm z)).
  { cbn [back_unary mk_binary] in E3. rewrite differ in E3 by (rewrite Eg; unfold sm; intros [= X _]; contradiction). rewrite Eg in E3. cbn [cview_of sm] in E3. injection E3 as <-. now rewrite Eg. }
  rewrite <- E3'. split; [|split; [|split; [exact F3|]]].
  - unfold lg. cbn [info]. rewrite I3. cbn [fst snd]. rewrite inherit_jac, term_jac. assert (Ls : has_leaf w (sm z) = true) by (unfold sm, ez; cbn [has_leaf] in L1 |- *; now rewrite L1).
    rewrite Ls. cbn [bind]. now rewrite E3.
  - rewrite E3'. destruct (ismat_ev _ _ _ _ _ _ (sm_mat c r z Mz)) as (t & Et & Ft). now apply (bin_mat_l _ _ _ _ _ _ _ _ t).
  - intros i Hi. assert (Hi' : (i < n_elems [c; r])%nat) by (cbn; lia). rewrite V3, V2 by exact Hi'. rewrite VS, V1 by exact Hi. rewrite (sm_val c r z Mz Fz), (ez_val c r z Fz) by exact Hi.
    cbn [slope bslope]. pose proof (S_pos c r z Mz). pose proof (exp_pos (val i z)). field. split; lra.
Qed.

(** what derive hands to the list of pending products for minus the mean of [lg z], where
    variable [v0] stands for the number of elements *)
Lemma cost_root v0 : env v0 = ([1%nat], [INR (c * r)]) -> forall gl, nfo (lg z) = (Ok gl, jac_of u L) ->
  exists X x, (d <- back_binary Rnum same BDiv (ESum (lg z)) (EVar v0) gl zero_node ;; back_unary Rnum same UNeg (EBin BDiv (ESum (lg z)) (EVar v0)) d) = Ok X /\
    ev X = Ok x /\ matrix c r x /\ forall i, (i < c * r)%nat -> at_ x i = - (1 - p i) * val i g / INR (c * r).
Proof.
  intros Hv gl Hl. destruct lg_info as (n1 & d1 & I1 & M1 & F1 & V1). cbn zeta in *. rewrite Hl in I1. injection I1 as Egl.
  pose proof (inv_mat _ _ _ _ _ _ nw_pos env0 _ _ _ _ _ _ _ H) as Mz. pose proof (inv_fit _ _ _ _ _ _ nw_pos env0 _ _ _ _ _ _ _ H) as Fz.
  pose proof (cr_pos c r z Mz) as Cr. assert (Nr : 0 < INR (c * r)) by (now apply lt_0_INR).
  assert (Np : (0 < n_elems [c; r])%nat) by (cbn; lia).
  assert (Fv : fit c r (EVar v0)).
  { exists (env v0). split; [reflexivity|]. rewrite Hv. split; [reflexivity|]. split; [reflexivity|now right]. }
  assert (Vv : forall i, val i (EVar v0) = INR (c * r)) by (intros i; unfold nval; cbn [eval elem]; rewrite Hv; reflexivity).
  assert (Fz0 : fit c r zero_node) by (apply gfit_const_intro, fits_scalar).
  destruct (S_node c r _ (lg_mat c r z Mz)) as [Fs _].
  destruct (gives_back_binary fresh use [c; r] env same same_ok Np BDiv (ESum (lg z)) (EVar v0) gl zero_node Fs Fv) as (g2 & E2 & F2 & V2); [rewrite Egl; exact F1|exact Fz0|intros _ i _; rewrite Vv; lra|].
  assert (Sh : exists d, g2 = EBin BDiv (EBin BMul gl (EVar v0)) d /\ fit c r d).
  { cbn [back_binary] in E2.
    destruct (times_nc same same_ok gl (EVar v0)) as [[Eq _]|X1]; [rewrite Egl; exact I|exact I|rewrite Egl in Eq; discriminate|].
    assert (Zc : const_is Rnum (const_scalar 0) (n_zero Rnum) = true) by (unfold const_is; cbn [snd const_scalar]; apply Reqb_iff; reflexivity).
    assert (X2 : mk_binary Rnum same BMul zero_node (ESum (lg z)) = Ok zero_node).
    { cbn [mk_binary]. rewrite differ by discriminate. cbn [cview_of]. rewrite Zc. reflexivity. }
    assert (X3 : mk_binary Rnum same BSub (EBin BMul gl (EVar v0)) zero_node = Ok (EBin BMul gl (EVar v0))).
    { cbn [mk_binary]. rewrite differ by discriminate. cbn [cview_of]. rewrite Zc. reflexivity. }
    destruct (square_nc same same_ok (EVar v0) I) as (d & Ed & Nd & Dd).
    rewrite X1, X2 in E2. cbn [bind] in E2. rewrite X3 in E2. cbn [bind] in E2. rewrite Ed in E2. cbn [bind mk_binary] in E2.
    rewrite differ in E2 by (destruct Dd as [-> | ->]; [discriminate|intros [= Eq]; rewrite Egl in Eq; discriminate]).
    rewrite (cview_nonconst d (nc_nonconst _ Nd)) in E2. cbn [cview_of] in E2. injection E2 as <-. exists d. split; [reflexivity|]. destruct Dd as [-> | ->]; [exact Fv|split; exact Fv]. }
  destruct Sh as (d & Eg & Fd).
  assert (Mg : mat c r g2).
  { rewrite Eg. destruct (gfit_ev _ _ _ _ d Fd) as (td & Etd & Ftd). apply (bin_mat_l _ _ _ _ _ _ _ _ td); [|exact Etd|exact Ftd].
    destruct (gfit_ev _ _ _ _ _ Fv) as (tv & Etv & Ftv). apply (bin_mat_l _ _ _ _ _ _ _ _ tv); [rewrite Egl; exact M1|exact Etv|exact Ftv]. }
  assert (Mx : mat c r (EUn UNeg g2)) by now apply un_mat. destruct Mx as (x & Ex & Mx).
  exists (EUn UNeg g2), x. rewrite E2. cbn [bind back_unary]. split; [rewrite Eg; reflexivity|]. split; [exact Ex|]. split; [exact Mx|]. intros i Hi.
  assert (Hi' : (i < n_elems [c; r])%nat) by (cbn; lia).
  assert (Vx : val i (EUn UNeg g2) = at_ x i) by (unfold nval; rewrite Ex; reflexivity).
  rewrite <- Vx, (val_un fresh use [c; r]); [|exact F2|exact Hi']. rewrite V2 by exact Hi'. rewrite Vv, Egl, V1 by exact Hi. cbn [meaning bslope n_neg Rnum].
  assert (V0 : val i zero_node = 0) by reflexivity. rewrite V0. pose proof (S_pos c r z Mz) as Sp. field. split; apply Rgt_not_eq; assumption.
Qed.
End G.
End Soft.
