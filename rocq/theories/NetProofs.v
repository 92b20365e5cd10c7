(** Gradients of networks: matrix products, biases and elementwise functions. *)
From Coq Require Import Reals Lra Lia.
From Verif Require Import Common ShapeModel ShapeProofs ShapeSpec TransformSpec TransformModel TransformProofs TransformLaws MatmulSpec ElemModel ElemProofs NumSpec RealNum ElemLaws GradModel GradSpec GradProofs MatrixSpec MatrixProofs.
Local Open Scope R_scope.

Notation sumR := (sumn 0 Rplus).

Lemma sumR_ext f g n : (forall i, (i < n)%nat -> f i = g i) -> sumR f n = sumR g n.
Proof. apply sumn_ext. Qed.
Lemma sumR_plus f g n : sumR (fun i => f i + g i) n = sumR f n + sumR g n.
Proof. induction n as [|n IH]; cbn; [lra|]. rewrite IH. lra. Qed.
Lemma sumR_scal c f n : sumR (fun i => c * f i) n = c * sumR f n.
Proof. induction n as [|n IH]; cbn; [lra|]. rewrite IH. lra. Qed.
Lemma sumR_scal_r c f n : sumR (fun i => f i * c) n = sumR f n * c.
Proof. induction n as [|n IH]; cbn; [lra|]. rewrite IH. lra. Qed.
Lemma sumR_zero f n : (forall i, (i < n)%nat -> f i = 0) -> sumR f n = 0.
Proof. intros H. induction n as [|n IH]; cbn; [reflexivity|]. rewrite IH by (intros; apply H; lia). rewrite H by lia. lra. Qed.
Lemma sumR_swap f n m : sumR (fun i => sumR (fun j => f i j) m) n = sumR (fun j => sumR (fun i => f i j) n) m.
Proof.
  induction n as [|n IH]; cbn; [symmetry; now apply sumR_zero|]. rewrite IH, <- sumR_plus. reflexivity.
Qed.
Lemma sumR_app f n m : sumR f (n + m) = sumR f n + sumR (fun i => f (n + i)%nat) m.
Proof. induction m as [|m IH]; [rewrite Nat.add_0_r; cbn; lra|]. rewrite Nat.add_succ_r. cbn [sumn]. rewrite IH. lra. Qed.
Lemma sumR_grid f c r : sumR f (c * r) = sumR (fun y => sumR (fun x => f (x + c * y)%nat) c) r.
Proof.
  induction r as [|r IH]; [now rewrite Nat.mul_0_r|]. rewrite Nat.mul_succ_r, sumR_app, IH. cbn [sumn]. f_equal.
  apply sumR_ext. intros i Hi. f_equal. lia.
Qed.
Lemma sumR_delta f n k : (k < n)%nat -> sumR (fun i => f i * (if (i =? k)%nat then 1 else 0)) n = f k.
Proof.
  intros H. induction n as [|n IH]; [lia|]. cbn [sumn]. destruct (Nat.eqb_spec n k) as [->|Hn].
  - rewrite sumR_zero; [lra|]. intros i Hi. destruct (Nat.eqb_spec i k); [lia|lra].
  - rewrite IH by lia. lra.
Qed.
Lemma lim_sum (f : nat -> R -> R) l n x : (forall q, (q < n)%nat -> derivable_pt_lim (f q) x (l q)) ->
  derivable_pt_lim (fun r => sumR (fun q => f q r) n) x (sumR l n).
Proof.
  induction n as [|n IH]; intros H; cbn [sumn].
  - apply (lim_ext (fct_cte 0)); [reflexivity|apply derivable_pt_lim_const].
  - apply (lim_ext (plus_fct (fun r => sumR (fun q => f q r) n) (f n))); [reflexivity|]. apply derivable_pt_lim_plus; [apply IH; intros; apply H; lia|apply H; lia].
Qed.

Lemma R_ring : exists opp, ring_theory (n_zero Rnum) (n_one Rnum) (n_add Rnum) (n_mul Rnum) (n_sub Rnum) opp eq.
Proof. exists Ropp. exact RTheory. Qed.

Lemma matrix_fits c r (t : tens R) : matrix c r t -> fits [c; r] t.
Proof.
  intros H. split; [eapply matrix_def; eauto|]. pose proof (matrix_n _ _ _ H) as N. destruct H as (Hc & Hr & L & [E|[E1 E2]]); [split; [lia|now left]|].
  split; [lia|]. right. rewrite N. exact E1.
Qed.
Lemma at_entry c r (t : tens R) x y : matrix c r t -> (x < c)%nat -> (y < r)%nat -> at_ t (x + c * y) = entry 0 c t x y.
Proof.
  intros (Hc & Hr & L & _) Hx Hy. unfold at_, entry. destruct (snd t) as [|v [|v' l]]; try reflexivity.
  cbn in L. assert (x = 0 /\ y = 0)%nat as [-> ->] by nia. rewrite Nat.mul_0_r. reflexivity.
Qed.

(** one argument a matrix, the other of the same shape or one element *)
Lemma mat_bin_l fresh c r (f : R -> R -> R) (a b : tens R) : matrix c r a -> fits [c; r] b ->
  exists u, forward_pass fresh elementary_shaper (binary_elem f) [a; b] None = Ok u /\ matrix c r u.
Proof.
  intros Ha Fb. destruct a as [sa da]. destruct b as [sb db].
  pose proof (matrix_def _ _ _ Ha) as Fa. pose proof (matrix_n _ _ _ Ha) as Na. pose proof Ha as (Hc & Hr & La & Sa).
  pose proof Fb as (Db & Lb & Sb). cbn [fst snd] in *.
  destruct (C23_binary_pointwise_lemma R fresh f sa sb da db Fa Db) as (d & E1 & E2 & E3 & E4); [congruence|congruence| |].
  { destruct Sb as [Sb|Sb]; [|right; left; congruence]. destruct Sa as [Sa|[S1 _]]; [|left; congruence]. right. right. left. congruence. }
  cbn zeta in *. set (outs := if (length db =? 1)%nat then if (length da =? 1)%nat then [1%nat] else sa else sb) in *.
  exists (outs, d). split; [apply E1; now left|]. assert (Eo : outs = [c; r] \/ ((c * r)%nat = 1%nat /\ outs = [1%nat])).
  { unfold outs. rewrite La. destruct (Nat.eqb_spec (length db) 1) as [L1|L1].
    - destruct (Nat.eqb_spec (c * r) 1) as [L2|L2]; [now right|]. destruct Sa as [Sa|[S1 _]]; [now left|congruence].
    - destruct Sb as [Sb|Sb]; [now left|congruence]. }
  split; [exact Hc|]. split; [exact Hr|]. split; [|exact Eo]. cbn [snd]. rewrite E2. destruct Eo as [->|[X ->]]; cbn; lia.
Qed.
Lemma mat_bin_r fresh c r (f : R -> R -> R) (a b : tens R) : fits [c; r] a -> matrix c r b ->
  exists u, forward_pass fresh elementary_shaper (binary_elem f) [a; b] None = Ok u /\ matrix c r u.
Proof.
  intros Fa Hb. destruct a as [sa da]. destruct b as [sb db].
  pose proof (matrix_def _ _ _ Hb) as Fb. pose proof (matrix_n _ _ _ Hb) as Nb. pose proof Hb as (Hc & Hr & Lb & Sb).
  pose proof Fa as (Da & La & Sa). cbn [fst snd] in *.
  destruct (C23_binary_pointwise_lemma R fresh f sa sb da db Da Fb) as (d & E1 & E2 & E3 & E4); [congruence|congruence| |].
  { destruct Sa as [Sa|Sa]; [|left; congruence]. destruct Sb as [Sb|[S1 _]]; [|right; left; congruence]. right. right. left. congruence. }
  cbn zeta in *. set (outs := if (length db =? 1)%nat then if (length da =? 1)%nat then [1%nat] else sa else sb) in *.
  exists (outs, d). split; [apply E1; now left|]. assert (Eo : outs = [c; r] \/ ((c * r)%nat = 1%nat /\ outs = [1%nat])).
  { unfold outs. rewrite Lb. destruct (Nat.eqb_spec (c * r) 1) as [L1|L1].
    - destruct (Nat.eqb_spec (length da) 1) as [L2|L2]; [now right|]. destruct Sa as [->|Sa]; [left; reflexivity|lia].
    - destruct Sb as [Sb|[S1 _]]; [now left|congruence]. }
  split; [exact Hc|]. split; [exact Hr|]. split; [|exact Eo]. cbn [snd]. rewrite E2. destruct Eo as [->|[X ->]]; cbn; lia.
Qed.

(** nodes without the variable *)
Lemma free_info fresh use same env w e : has_leaf w e = false -> info Rnum fresh use same env w e = (Ok (EConst (const_scalar 0)), None).
Proof.
  induction e as [v|t|o a IH|o a IHa b IHb|a IHa b IHb|a IH|a IH|a IH|ax a IH|tA tB a IHa b IHb|ax a IHa b IHb]; cbn [has_leaf info]; intros H;
    try (apply orb_false_elim in H; destruct H as [H1 H2]; rewrite ?IHa, ?IHb by assumption; rewrite ?H1, ?H2; reflexivity);
    try (rewrite ?IH by assumption; rewrite ?H; reflexivity).
Qed.
Lemma free_eval fresh use env w k x e : has_leaf w e = false -> eval Rnum fresh use (set_elem env w k x) e = eval Rnum fresh use env e.
Proof. intros H. apply eval_ext. intros v Hv. unfold set_elem. destruct (Nat.eqb_spec v w); [subst; congruence|reflexivity]. Qed.

Lemma grid_index c r i : (0 < c)%nat -> (i < c * r)%nat -> i = (i mod c + c * (i / c))%nat /\ (i mod c < c)%nat /\ (i / c < r)%nat.
Proof. intros Hc Hi. split; [rewrite Nat.add_comm; apply Nat.div_mod; lia|]. split; [apply Nat.mod_upper_bound; lia|apply Nat.div_lt_upper_bound; lia]. Qed.

Section Node.
Context (fresh : nat -> R) (use : bool) (env : nat -> tens R).
Notation ev := (eval Rnum fresh use env).
Notation val := (nval fresh use env).

(** the node's value is a matrix *)
Definition ismat (c r : nat) (e : @expr R) : Prop := exists t, ev e = Ok t /\ matrix c r t.

Lemma ismat_pos c r e : ismat c r e -> (0 < c)%nat /\ (0 < r)%nat.
Proof. intros (t & _ & H & H' & _). auto. Qed.
Lemma val_entry c r e t x y : ev e = Ok t -> matrix c r t -> (x < c)%nat -> (y < r)%nat -> val (x + c * y) e = entry 0 c t x y.
Proof. intros E M Hx Hy. unfold nval. rewrite E. now apply (at_entry c r). Qed.

Lemma mat_node c r z tA tB a b : ismat z r a -> ismat c z b ->
  ismat c r (EMat tA tB a b) /\ forall x y, (x < c)%nat -> (y < r)%nat -> val (x + c * y) (EMat tA tB a b) = sumR (fun q => val (q + z * y) a * val (x + c * q) b) z.
Proof.
  intros (ta & Ea & Ma) (tb & Eb & Mb). destruct (mat_mul Rnum fresh use (fun _ => R_ring) c r z ta tb Ma Mb) as (u & E & _ & Mu & V).
  assert (Eu : ev (EMat tA tB a b) = Ok u) by (cbn [eval]; rewrite Ea, Eb; exact E).
  split; [exists u; auto|]. intros x y Hx Hy. rewrite (val_entry c r _ u x y Eu Mu Hx Hy). cbn [n_zero n_add n_mul Rnum] in V. rewrite V by auto.
  apply sumR_ext. intros q Hq. now rewrite (val_entry z r a ta q y Ea Ma Hq Hy), (val_entry c z b tb x q Eb Mb Hx Hq).
Qed.
Lemma tr_node c r a : ismat c r a -> ismat r c (ETr a) /\ forall x y, (x < r)%nat -> (y < c)%nat -> val (x + r * y) (ETr a) = val (y + c * x) a.
Proof.
  intros (ta & Ea & Ma). destruct (mat_tr Rnum fresh c r ta Ma) as (u & E & Mu & V).
  assert (Eu : ev (ETr a) = Ok u) by (cbn [eval]; rewrite Ea; exact E).
  split; [exists u; auto|]. intros x y Hx Hy. rewrite (val_entry r c _ u x y Eu Mu Hx Hy). cbn [n_zero Rnum] in V. rewrite V by auto.
  now rewrite (val_entry c r a ta y x Ea Ma Hy Hx).
Qed.
Lemma bias_node c r a b tb : ismat c r a -> ev b = Ok tb -> vector c tb ->
  ismat c r (EAxB 1 a b) /\ forall x y, (x < c)%nat -> (y < r)%nat -> val (x + c * y) (EAxB 1 a b) = val (x + c * y) a + nth x (snd tb) 0.
Proof.
  intros (ta & Ea & Ma) Eb Vb. destruct (mat_bias Rnum fresh c r Rplus ta tb Ma Vb) as (u & E & _ & Mu & V).
  assert (Eu : ev (EAxB 1 a b) = Ok u) by (cbn [eval]; rewrite Ea, Eb; exact E).
  split; [exists u; auto|]. intros x y Hx Hy. rewrite (val_entry c r _ u x y Eu Mu Hx Hy). cbn [n_zero n_add Rnum] in V. rewrite V by auto.
  now rewrite (val_entry c r a ta x y Ea Ma Hx Hy).
Qed.
Lemma ones_node c r e : ismat c r e -> ismat c r (EEq e e) /\ forall i, (i < c * r)%nat -> val i (EEq e e) = 1.
Proof.
  intros (t & E & M). destruct (mat_bin Rnum fresh c r (fun x y => if n_eqb Rnum x y then 1 else 0) t t M M) as (u & Eu & Mu & V).
  assert (Ev : ev (EEq e e) = Ok u) by (cbn [eval]; rewrite E; exact Eu).
  split; [exists u; auto|]. intros i Hi. pose proof M as (Hc & Hr & _).
  destruct (grid_index c r i Hc Hi) as (Ei & Hx & Hy). rewrite Ei. revert Hx Hy. generalize (i mod c)%nat (i / c)%nat. intros x y Hx Hy.
  rewrite (val_entry c r _ u x y Ev Mu Hx Hy). cbn [n_zero Rnum] in V. rewrite V by auto.
  assert (Eq : n_eqb Rnum (entry 0 c t x y) (entry 0 c t x y) = true) by now apply Reqb_iff. now rewrite Eq.
Qed.
Lemma un_mat c r op a : ismat c r a -> ismat c r (EUn op a).
Proof. intros (t & E & M). destruct (mat_un Rnum fresh c r (fwd_lambda Rnum op) t M) as (u & Eu & Mu & _). exists u. cbn [eval]. rewrite E. auto. Qed.
Lemma bin_mat_l c r op a b t : ismat c r a -> ev b = Ok t -> fits [c; r] t -> ismat c r (EBin op a b).
Proof. intros (ta & E & M) Eb F. destruct (mat_bin_l fresh c r (bop_lambda Rnum op) ta t M F) as (u & Eu & Mu). exists u. cbn [eval]. rewrite E, Eb. auto. Qed.
Lemma bin_mat_r c r op a b t : ismat c r b -> ev a = Ok t -> fits [c; r] t -> ismat c r (EBin op a b).
Proof. intros (tb & E & M) Ea F. destruct (mat_bin_r fresh c r (bop_lambda Rnum op) t tb F M) as (u & Eu & Mu). exists u. cbn [eval]. rewrite E, Ea. auto. Qed.
Lemma ismat_ev c r e : ismat c r e -> exists t, ev e = Ok t /\ fits [c; r] t.
Proof. intros (t & E & M). exists t. split; [exact E|]. now apply matrix_fits. Qed.

End Node.

(** ---- the invariant ---- *)
Definition nonconst (e : @expr R) : Prop := match e with EConst _ => False | _ => True end.
Definition not_tr (e : @expr R) : Prop := match e with ETr _ => False | _ => True end.
Definition is_eye (e : @expr R) : Prop := match e with EMat _ _ _ _ | ETr _ => True | _ => False end.

Lemma eye_nonconst e : is_eye e -> nonconst e.
Proof. destruct e; cbn; auto. Qed.
Lemma cview_nonconst e : nonconst e -> cview_of Rnum e = CNone.
Proof. destruct e; cbn; auto. contradiction. Qed.

Section Net.
Context (fresh : nat -> R) (use : bool) (same : @expr R -> @expr R -> bool).
Context (same_ok : forall a b, same a b = true -> a = b).
Context (same_mat : forall tA tB a b, same (EMat tA tB a b) (EMat tA tB a b) = true).
Context (env : nat -> tens R) (w nw : nat) (nw_pos : (0 < nw)%nat).
Context (env0 : forall k v, (k < nw)%nat -> set_elem env w k (at_ (env w) k) v = env v).
Notation ev := (eval Rnum fresh use env).
Notation val := (nval fresh use env).
Notation envr := (set_elem env w).
Notation r0 k := (at_ (env w) k).
Notation fit c r := (gfit fresh use [c; r] env).
Notation nfo := (info Rnum fresh use same env w).
Notation jac := (jac_call Rnum fresh use same env).

Definition jac_of (u : @expr R) (L : list (@jentry R)) : option (@jlist R) :=
  match L with [] => None | _ => Some (mkJ u L false) end.

Lemma inherit_jac u L : inherit same None (jac_of u L) = jac_of u L.
Proof. destruct L; reflexivity. Qed.
Lemma inherit_none (j : option (@jlist R)) : inherit same j None = j.
Proof. reflexivity. Qed.
Lemma inherit_twice u L : same u u = true -> inherit same (jac_of u L) (jac_of u L) = jac_of u L.
Proof. intros H. destruct L; cbn; [reflexivity|]. now rewrite H. Qed.
Lemma term_jac u L : terminal (jac_of u L) = false.
Proof. destruct L; reflexivity. Qed.
Lemma push_jac e en u L : push_back e en (jac_of u L) = jac_of (match L with [] => e | _ => u end) (L ++ [en]).
Proof. destruct L; reflexivity. Qed.
Lemma jac_app L en X : jac (L ++ [en]) X = (Y <- jac_step Rnum fresh use same env en X ;; jac L Y).
Proof.
  unfold jac_call. rewrite fold_right_app. cbn [fold_right bind]. destruct (jac_step Rnum fresh use same env en X) as [Y| | |]; cbn [bind]; [reflexivity| | |];
    (induction L as [|j L IH]; cbn [fold_right]; [reflexivity|rewrite IH; reflexivity]).
Qed.

(** [e] has gradient node [g] and Jacobian list [L] (created by u): derivatives of its elements
    are g's elements times T, and applying L to a node X sums X's elements times T *)
Record inv (c r : nat) (e g : @expr R) (u : @expr R) (L : list (@jentry R)) (T : nat -> nat -> R) : Prop := mkInv {
  i_leaf : has_leaf w e = true;
  i_info : nfo e = (Ok g, jac_of u L);
  i_uid : same u u = true \/ L = [];
  i_val : forall k x, (k < nw)%nat -> ismat fresh use (envr k x) c r e;
  i_gfit : forall k x, (k < nw)%nat -> gfit fresh use [c; r] (envr k x) e;
  i_g : fit c r g;
  i_lim : forall k i, (k < nw)%nat -> (i < c * r)%nat -> derivable_pt_lim (fun x => nval fresh use (envr k x) i e) (r0 k) (val i g * T k i);
  i_jac : forall X t, ev X = Ok t -> fits [c; r] t -> (L <> [] -> matrix c r t) ->
    exists Y y, jac L X = Ok Y /\ ev Y = Ok y /\ fits (fst (env w)) y /\ (matrix c r t -> length (snd y) = nw) /\
      forall k, (k < nw)%nat -> at_ y k = sumR (fun i => at_ t i * T k i) (c * r) }.

Lemma eval_r0 k e : (k < nw)%nat -> eval Rnum fresh use (envr k (r0 k)) e = ev e.
Proof. intros H. apply eval_ext. intros v _. now apply env0. Qed.
Lemma inv_mat c r e g u L T : inv c r e g u L T -> ismat fresh use env c r e.
Proof.
  intros H. destruct (i_val _ _ _ _ _ _ _ H 0 (r0 0) nw_pos) as (t & E & M). exists t. split; [|exact M]. rewrite <- E. symmetry. now apply eval_r0.
Qed.
Lemma inv_fit c r e g u L T : inv c r e g u L T -> fit c r e.
Proof. intros H. eapply (gfit_r0 fresh use [c; r] env w 0). - intros v. now apply env0. - intros x. now apply (i_gfit _ _ _ _ _ _ _ H). Qed.

(** a node without the variable whose value fits *)
Definition cst (c r : nat) (e : @expr R) : Prop := has_leaf w e = false /\ fit c r e.
Lemma cst_gfit c r e k x : cst c r e -> gfit fresh use [c; r] (envr k x) e.
Proof.
  intros [H F]. induction e as [v|t|o a IH|o a IHa b IHb| | | | | | |]; cbn [gfit has_leaf] in *; auto;
    try (destruct F as (t' & E & F); exists t'; split; [|exact F]; rewrite free_eval; [exact E|exact H]).
  apply orb_false_elim in H. destruct H, F. auto.
Qed.
Lemma cst_lim c r e k i : cst c r e -> derivable_pt_lim (fun x => nval fresh use (envr k x) i e) (r0 k) 0.
Proof.
  intros [H _]. apply (lim_ext (fct_cte (val i e))); [|apply derivable_pt_lim_const]. intros x. unfold fct_cte, nval. f_equal. symmetry. now apply free_eval.
Qed.

Notation zero_node := (EConst (const_scalar 0)).
Section Elem.
Context (c r : nat) (u : @expr R) (L : list (@jentry R)) (T : nat -> nat -> R).
Notation smooth op a := (all_smooth fresh use [c; r] env op a).
Lemma npos c' r' e : ismat fresh use env c' r' e -> (0 < n_elems [c'; r'])%nat.
Proof. intros H. apply ismat_pos in H. cbn. nia. Qed.
Lemma nel i : (i < c * r)%nat -> (i < n_elems [c; r])%nat.
Proof. cbn. lia. Qed.

Lemma inv_un op a g : inv c r a g u L T -> smooth op a ->
  exists g', back_unary Rnum same op a g = Ok g' /\ inv c r (EUn op a) g' u L T /\ forall i, (i < c * r)%nat -> val i g' = slope op (val i a) * val i g.
Proof.
  intros H Hs. pose proof (npos _ _ _ (inv_mat _ _ _ _ _ _ _ H)) as Np.
  destruct (gives_back_unary fresh use [c; r] env same same_ok Np op a g (inv_fit _ _ _ _ _ _ _ H) (i_g _ _ _ _ _ _ _ H) Hs) as (g' & E1 & E2 & E3).
  exists g'. split; [exact E1|]. assert (V : forall i, (i < c * r)%nat -> val i g' = slope op (val i a) * val i g) by (intros i Hi; apply E3; now apply nel). split; [|exact V].
  destruct H as [h1 h2 h3 h4 h5 h6 h7 h8]. constructor; auto.
  - cbn [info]. rewrite h2. cbn [fst snd]. rewrite inherit_jac, term_jac, h1. cbn [bind]. now rewrite E1.
  - intros k x Hk. apply un_mat. auto.
  - intros k i Hk Hi. rewrite V by exact Hi. pose proof (nel _ Hi) as Hi'.
    apply (lim_val _ _ (slope op (val i a) * (val i g * T k i))); [ring|].
    apply (lim_ext (comp (meaning Rnum op) (fun x => nval fresh use (envr k x) i a))); [intros x; symmetry; apply (val_un fresh use [c; r]); auto|].
    apply derivable_pt_lim_comp; [now apply h7|]. cbv beta. replace (nval fresh use (envr k (r0 k)) i a) with (val i a) by (unfold nval; now rewrite eval_r0). apply slope_ok. now apply Hs.
Qed.

Definition div_ok (op : bop) (b : @expr R) : Prop := op = BDiv -> forall i, (i < c * r)%nat -> val i b <> 0.
Lemma bin_lim op a b ga gb Ta Tb g' k i :
  (forall x, gfit fresh use [c; r] (envr k x) a) -> (forall x, gfit fresh use [c; r] (envr k x) b) -> div_ok op b -> (k < nw)%nat -> (i < c * r)%nat ->
  derivable_pt_lim (fun x => nval fresh use (envr k x) i a) (r0 k) (ga * Ta) ->
  derivable_pt_lim (fun x => nval fresh use (envr k x) i b) (r0 k) (gb * Tb) ->
  g' = bslope op (val i a) (val i b) (ga * Ta) (gb * Tb) ->
  derivable_pt_lim (fun x => nval fresh use (envr k x) i (EBin op a b)) (r0 k) g'.
Proof.
  intros Fa Fb Hd Hk Hi GA GB ->. pose proof (nel _ Hi) as Hi'.
  set (fa := fun x => nval fresh use (envr k x) i a) in *. set (fb := fun x => nval fresh use (envr k x) i b) in *.
  assert (Ea : fa (r0 k) = val i a) by (unfold fa, nval; now rewrite eval_r0). assert (Eb : fb (r0 k) = val i b) by (unfold fb, nval; now rewrite eval_r0).
  assert (Ev : forall x, nval fresh use (envr k x) i (EBin op a b) = bmeaning Rnum op (fa x) (fb x)) by (intros x; apply (val_bin fresh use [c; r]); auto).
  destruct op; cbn [bslope]; cbn [bmeaning] in Ev.
  - apply (lim_ext (plus_fct fa fb)); [intros x; now rewrite Ev|]. now apply derivable_pt_lim_plus.
  - apply (lim_ext (minus_fct fa fb)); [intros x; now rewrite Ev|]. now apply derivable_pt_lim_minus.
  - apply (lim_ext (mult_fct fa fb)); [intros x; now rewrite Ev|]. eapply lim_val; [|apply derivable_pt_lim_mult; eassumption]. rewrite Ea, Eb. ring.
  - apply (lim_ext (div_fct fa fb)); [intros x; now rewrite Ev|]. specialize (Hd eq_refl i Hi).
    eapply lim_val; [|apply derivable_pt_lim_div; [eassumption|eassumption|rewrite Eb; exact Hd]]. rewrite Ea, Eb. unfold Rsqr. field. exact Hd.
Qed.
Lemma bslope_scal op x y gx gy t : (op = BDiv -> y <> 0) -> bslope op x y gx gy * t = bslope op x y (gx * t) (gy * t).
Proof. intros H. destruct op; cbn [bslope]; try ring. field. now apply H. Qed.

Lemma inv_bin op a b ga gb : inv c r a ga u L T -> inv c r b gb u L T -> div_ok op b ->
  exists g', back_binary Rnum same op a b ga gb = Ok g' /\ inv c r (EBin op a b) g' u L T /\ forall i, (i < c * r)%nat -> val i g' = bslope op (val i a) (val i b) (val i ga) (val i gb).
Proof.
  intros Ha Hb Hd. pose proof (npos _ _ _ (inv_mat _ _ _ _ _ _ _ Ha)) as Np.
  destruct (gives_back_binary fresh use [c; r] env same same_ok Np op a b ga gb (inv_fit _ _ _ _ _ _ _ Ha) (inv_fit _ _ _ _ _ _ _ Hb) (i_g _ _ _ _ _ _ _ Ha) (i_g _ _ _ _ _ _ _ Hb)) as (g' & E1 & E2 & E3).
  { intros Ho i Hi. apply Hd; auto. cbn in Hi. lia. }
  exists g'. split; [exact E1|]. assert (V : forall i, (i < c * r)%nat -> val i g' = bslope op (val i a) (val i b) (val i ga) (val i gb)) by (intros i Hi; apply E3; now apply nel). split; [|exact V].
  pose proof Ha as [a1 a2 a3 a4 a5 a6 a7 a8]. pose proof Hb as [b1 b2 b3 b4 b5 b6 b7 b8]. constructor; auto.
  - cbn [has_leaf]. now rewrite a1.
  - cbn [info]. rewrite a2, b2. cbn [fst snd].
    assert (EI : inherit same (inherit same None (jac_of u L)) (jac_of u L) = jac_of u L).
    { rewrite inherit_jac. destruct a3 as [a3| ->]; [now apply inherit_twice|reflexivity]. }
    rewrite EI, term_jac, a1. cbn [orb bind]. now rewrite E1.
  - intros k x Hk. destruct (ismat_ev _ _ _ _ _ _ (b4 k x Hk)) as (t & E & F). now apply (bin_mat_l _ _ _ _ _ _ _ _ t); auto.
  - intros k x Hk. cbn [gfit]. auto.
  - intros k i Hk Hi. rewrite V by exact Hi. eapply (bin_lim op a b (val i ga) (val i gb) (T k i) (T k i)); auto. apply bslope_scal. intros Ho. now apply Hd.
Qed.

Lemma zero_fit : fit c r zero_node.
Proof. apply gfit_const_intro, fits_scalar. Qed.

Lemma inv_bin_l op a b ga : inv c r a ga u L T -> cst c r b -> div_ok op b ->
  exists g', back_binary Rnum same op a b ga zero_node = Ok g' /\ inv c r (EBin op a b) g' u L T /\ forall i, (i < c * r)%nat -> val i g' = bslope op (val i a) (val i b) (val i ga) 0.
Proof.
  intros Ha Hb Hd. pose proof (npos _ _ _ (inv_mat _ _ _ _ _ _ _ Ha)) as Np.
  destruct (gives_back_binary fresh use [c; r] env same same_ok Np op a b ga zero_node (inv_fit _ _ _ _ _ _ _ Ha) (proj2 Hb) (i_g _ _ _ _ _ _ _ Ha) zero_fit) as (g' & E1 & E2 & E3).
  { intros Ho i Hi. apply Hd; auto. cbn in Hi. lia. }
  exists g'. split; [exact E1|]. assert (V : forall i, (i < c * r)%nat -> val i g' = bslope op (val i a) (val i b) (val i ga) 0) by (intros i Hi; apply E3; now apply nel). split; [|exact V].
  pose proof Ha as [a1 a2 a3 a4 a5 a6 a7 a8]. constructor; auto.
  - cbn [has_leaf]. now rewrite a1.
  - cbn [info]. rewrite a2, (free_info _ _ _ _ _ b) by apply Hb. cbn [fst snd]. rewrite inherit_none, inherit_jac, term_jac, a1. cbn [orb bind]. now rewrite E1.
  - intros k x Hk. destruct (gfit_ev _ _ _ _ b (cst_gfit _ _ _ k x Hb)) as (t & E & F). now apply (bin_mat_l _ _ _ _ _ _ _ _ t); auto.
  - intros k x Hk. cbn [gfit]. split; auto. now apply cst_gfit.
  - intros k i Hk Hi. rewrite V by exact Hi. eapply (bin_lim op a b (val i ga) 0 (T k i) 0); auto.
    + intros x. now apply cst_gfit.
    + apply (lim_val _ _ 0); [ring|]. eapply cst_lim; eauto.
    + rewrite bslope_scal by (intros Ho; now apply Hd). f_equal. ring.
Qed.
Lemma inv_bin_r op a b gb : cst c r a -> inv c r b gb u L T -> div_ok op b ->
  exists g', back_binary Rnum same op a b zero_node gb = Ok g' /\ inv c r (EBin op a b) g' u L T /\ forall i, (i < c * r)%nat -> val i g' = bslope op (val i a) (val i b) 0 (val i gb).
Proof.
  intros Ha Hb Hd. pose proof (npos _ _ _ (inv_mat _ _ _ _ _ _ _ Hb)) as Np.
  destruct (gives_back_binary fresh use [c; r] env same same_ok Np op a b zero_node gb (proj2 Ha) (inv_fit _ _ _ _ _ _ _ Hb) zero_fit (i_g _ _ _ _ _ _ _ Hb)) as (g' & E1 & E2 & E3).
  { intros Ho i Hi. apply Hd; auto. cbn in Hi. lia. }
  exists g'. split; [exact E1|]. assert (V : forall i, (i < c * r)%nat -> val i g' = bslope op (val i a) (val i b) 0 (val i gb)) by (intros i Hi; apply E3; now apply nel). split; [|exact V].
  pose proof Hb as [b1 b2 b3 b4 b5 b6 b7 b8]. constructor; auto.
  - cbn [has_leaf]. rewrite b1. apply orb_true_r.
  - cbn [info]. rewrite b2, (free_info _ _ _ _ _ a) by apply Ha. cbn [fst snd]. rewrite inherit_none, inherit_jac, term_jac, b1, orb_true_r. cbn [bind]. now rewrite E1.
  - intros k x Hk. destruct (gfit_ev _ _ _ _ a (cst_gfit _ _ _ k x Ha)) as (t & E & F). now apply (bin_mat_r _ _ _ _ _ _ _ _ t); auto.
  - intros k x Hk. cbn [gfit]. split; auto. now apply cst_gfit.
  - intros k i Hk Hi. rewrite V by exact Hi. eapply (bin_lim op a b 0 (val i gb) 0 (T k i)); auto.
    + intros x. now apply cst_gfit.
    + apply (lim_val _ _ 0); [ring|]. eapply cst_lim; eauto.
    + rewrite bslope_scal by (intros Ho; now apply Hd). f_equal. ring.
Qed.
End Elem.

(** ---- the variable itself ---- *)
Definition Tvar (k i : nat) : R := if (i =? k)%nat then 1 else 0.
Lemma inv_var c r : matrix c r (env w) -> nw = (c * r)%nat -> inv c r (EVar w) (EConst (const_scalar 1)) (EVar w) [] Tvar.
Proof.
  intros M En. pose proof (matrix_fits _ _ _ M) as F. pose proof M as (Hc & Hr & Ln & Sh). constructor.
  - cbn. apply Nat.eqb_refl.
  - cbn. now rewrite Nat.eqb_refl.
  - now right.
  - intros k x Hk. exists (envr k x w). split; [reflexivity|]. unfold set_elem. rewrite Nat.eqb_refl. split; [exact Hc|]. split; [exact Hr|]. split; [|exact Sh]. cbn [snd].
    destruct (snd (env w)) as [|v [|v' l]] eqn:E; rewrite ?length_set_nth; exact Ln.
  - intros k x Hk. exists (envr k x w). split; [reflexivity|]. now apply set_elem_fits.
  - apply gfit_const_intro, fits_scalar.
  - intros k i Hk Hi. rewrite val_const, at_scalar. apply (lim_val _ _ (Tvar k i)); [ring|]. unfold Tvar, nval. cbn [eval elem].
    destruct (Nat.eqb_spec i k) as [->|Hik].
    + apply (lim_ext id); [|apply derivable_pt_lim_id]. intros x. unfold id. symmetry. apply (set_elem_at_self [c; r]); [exact F|cbn; lia].
    + apply (lim_ext (fct_cte (at_ (env w) i))); [|apply derivable_pt_lim_const]. intros x. unfold fct_cte. symmetry. apply set_elem_at_other; [lia|exact Hik].
  - intros X t EX FX _. exists X, t. split; [reflexivity|]. split; [exact EX|]. split; [|split].
    + destruct FX as (D1 & D2 & D3). split; [exact D1|]. split; [exact D2|]. destruct D3 as [D3|D3]; [|now right]. destruct Sh as [Sh|[S1 Sh]]; [left; congruence|]. right. rewrite D3. cbn. lia.
    + intros Mt. rewrite En. apply Mt.
    + intros k Hk. symmetry. apply sumR_delta. lia.
Qed.

(** ---- products ---- *)
(** mk_tr of the node is its transpose *)
Definition transposable (c r : nat) (b : @expr R) : Prop :=
  ismat fresh use env c r b /\ ismat fresh use env r c (mk_tr b) /\ forall x y, (x < r)%nat -> (y < c)%nat -> val (x + r * y) (mk_tr b) = val (y + c * x) b.
Lemma transposable_node c r b : not_tr b -> ismat fresh use env c r b -> transposable c r b.
Proof.
  intros Ht M. destruct (tr_node fresh use env c r b M) as [M' V]. assert (E : mk_tr b = ETr b) by (destruct b; cbn in *; auto; contradiction).
  unfold transposable. rewrite E. auto.
Qed.
Lemma transposable_tr c r b : ismat fresh use env r c b -> transposable c r (ETr b).
Proof.
  intros M. destruct (tr_node fresh use env r c b M) as [M' V]. split; [exact M'|]. cbn [mk_tr]. split; [exact M|]. intros x y Hx Hy. symmetry. now apply V.
Qed.

(** a product node times a gradient that is not the constant zero: neither is folded away *)
Lemma times_grad c r m g : is_eye m -> ismat fresh use env c r m -> fit c r g -> is_zero_const Rnum g = false ->
  exists x, mk_binary Rnum same BMul m g = Ok x /\ nonconst x /\ ismat fresh use env c r x /\ forall i, (i < c * r)%nat -> val i x = val i m * val i g.
Proof.
  intros Hm M Fg Hz. pose proof (npos _ _ _ M) as Np.
  assert (Fm : fit c r m) by (destruct (ismat_ev _ _ _ _ _ _ M) as (t & Et & Ft); destruct m; cbn in Hm; try contradiction; exists t; auto).
  destruct (gives_binary fresh use [c; r] env same same_ok Np BMul m g Fm Fg) as (x & E1 & E2 & E3); [discriminate|].
  exists x. split; [exact E1|]. assert (V : forall i, (i < c * r)%nat -> val i x = val i m * val i g) by (intros i Hi; apply E3; cbn; lia).
  cut (nonconst x /\ ismat fresh use env c r x); [tauto|]. clear E2 E3 V. cbn [mk_binary] in E1.
  destruct (same m g) eqn:S.
  { cbn [mk_unary] in E1. assert (N1 : n_eqb Rnum (n_two Rnum) (n_zero Rnum) = false) by (apply not_true_iff_false; intros H; apply Reqb_iff in H; cbn in H; lra).
    assert (N2 : n_eqb Rnum (n_two Rnum) (n_one Rnum) = false) by (apply not_true_iff_false; intros H; apply Reqb_iff in H; cbn in H; lra).
    rewrite N1, N2 in E1. injection E1 as <-. destruct m; cbn in Hm; try contradiction; cbn [fold_node]; (split; [exact I|apply un_mat; exact M]). }
  rewrite (cview_nonconst m (eye_nonconst m Hm)) in E1. destruct (gfit_ev _ _ _ _ g Fg) as (tg & Eg & Fg').
  destruct (cview_of Rnum g) eqn:Cg.
  - injection E1 as <-. split; [exact I|]. now apply (bin_mat_l _ _ _ _ _ _ _ _ tg).
  - exfalso. destruct g; cbn [cview_of is_zero_const] in Cg, Hz; try discriminate. rewrite Hz in Cg. revert Cg. destruct (one_elem t); [destruct (snd t)|]; discriminate.
  - cbn [mk_unary] in E1.
    assert (Hv : n_eqb Rnum (n_zero Rnum) v = false).
    { destruct g; cbn [cview_of is_zero_const] in Cg, Hz; try discriminate. rewrite Hz in Cg. revert Cg. destruct (one_elem t) eqn:O; [|discriminate]. destruct (snd t) as [|a l] eqn:Et; [discriminate|]. intros Cg. assert (a = v) by congruence. subst a.
      apply not_true_iff_false. intros H. apply Reqb_iff in H. cbn in H. subst v. cbn in Eg. injection Eg as <-. destruct Fg' as (_ & Lg & _). unfold one_elem in O. apply Nat.eqb_eq in O. rewrite Et in Lg. rewrite <- O in Lg.
      destruct l; [|cbn in Lg; lia]. unfold const_is in Hz. rewrite Et in Hz. assert (X : n_eqb Rnum 0 0 = true) by now apply Reqb_iff. cbn in Hz, X. congruence. }
    destruct m; cbn in Hm; try contradiction; rewrite Hv in E1;
      (destruct (n_eqb Rnum (n_one Rnum) v); [injection E1 as <-; split; [exact I|exact M]|];
       destruct (n_eqb Rnum (n_neg Rnum (n_one Rnum)) v); injection E1 as <-; (split; [exact I|apply un_mat; exact M])).
Qed.
Lemma times_zero m : is_eye m -> mk_binary Rnum same BMul m zero_node = Ok zero_node.
Proof.
  intros Hm. cbn [mk_binary]. destruct (same m zero_node) eqn:S; [apply same_ok in S; subst; contradiction|]. rewrite (cview_nonconst m (eye_nonconst m Hm)).
  cbn [cview_of]. assert (E : const_is Rnum (const_scalar 0) (n_zero Rnum) = true) by (unfold const_is; cbn; now apply Reqb_iff). now rewrite E.
Qed.
Lemma zero_cview : cview_of Rnum zero_node = CZero.
Proof. cbn [cview_of]. assert (E : const_is Rnum (const_scalar 0) (n_zero Rnum) = true) by (unfold const_is; cbn; now apply Reqb_iff). now rewrite E. Qed.
Lemma zero_is : is_zero_const Rnum zero_node = true.
Proof. cbn [is_zero_const]. unfold const_is; cbn. now apply Reqb_iff. Qed.

Lemma eye_tr (t : bool) m : is_eye m -> is_eye (if t then mk_tr m else m) \/ exists c, m = ETr c.
Proof. destruct t, m; cbn; auto; eauto. Qed.
Lemma tr_flag (t : bool) tA tB a b c r : ismat fresh use env c r (EMat tA tB a b) ->
  is_eye (if t then mk_tr (EMat tA tB a b) else EMat tA tB a b) /\ ismat fresh use env (if t then r else c) (if t then c else r) (if t then mk_tr (EMat tA tB a b) else EMat tA tB a b).
Proof. intros M. destruct t; cbn [mk_tr]; split; try exact I; auto. now apply tr_node. Qed.

(** one step of the Jacobian, the variable being on the left *)
Lemma step_left c r z tB a b ga X t : not_tr a -> ismat fresh use env z r a -> transposable c z b -> fit z r ga -> is_zero_const Rnum ga = false ->
  ev X = Ok t -> matrix c r t ->
  exists Y, jac_step Rnum fresh use same env (JMat false tB a b (Ok ga) (Ok zero_node)) X = Ok Y /\ ismat fresh use env z r Y /\
    forall q y, (q < z)%nat -> (y < r)%nat -> val (q + z * y) Y = sumR (fun x => at_ t (x + c * y) * val (x + c * q) b) c * val (q + z * y) ga.
Proof.
  intros Ht Ma (Mb & Mb' & Vb) Fg Hz EX MX. assert (MX' : ismat fresh use env c r X) by (exists t; auto).
  unfold jac_step. cbn [bind]. rewrite Hz. cbn [andb]. unfold mk_mat.
  destruct (mat_node fresh use env z r c false true X (mk_tr b) MX' Mb') as [MA VA].
  destruct (tr_node fresh use env z r a Ma) as [Ma' _]. assert (Ea : mk_tr a = ETr a) by (destruct a; cbn in *; auto; contradiction). rewrite Ea.
  destruct (mat_node fresh use env c z r true false (ETr a) X Ma' MX') as [MB _].
  destruct MA as (ta & EA & MA). destruct MB as (tb & EB & MB). rewrite EA, EB. cbn [bind].
  assert (MA' : ismat fresh use env z r (EMat false true X (mk_tr b))) by (exists ta; auto). assert (MB' : ismat fresh use env c z (EMat true false (ETr a) X)) by (exists tb; auto).
  destruct (tr_flag tB true false (ETr a) X c z MB') as [Ey (tb' & EB' & _)]. rewrite EB'. cbn [bind].
  destruct (times_grad z r (EMat false true X (mk_tr b)) ga I MA' Fg Hz) as (x & E1 & E2 & E3 & E4). rewrite E1. cbn [bind]. rewrite (times_zero _ Ey). cbn [bind mk_binary].
  rewrite (cview_nonconst x E2), zero_cview. exists x. split; [reflexivity|]. split; [exact E3|]. intros q y Hq Hy. rewrite E4 by nia. f_equal. rewrite VA by auto.
  apply sumR_ext. intros i Hi. rewrite Vb by auto. f_equal. unfold nval. now rewrite EX.
Qed.
(** ... on the right *)
Lemma step_right c r z tA a b gb X t : not_tr b -> ismat fresh use env c z b -> transposable z r a -> fit c z gb -> is_zero_const Rnum gb = false ->
  ev X = Ok t -> matrix c r t ->
  exists Y, jac_step Rnum fresh use same env (JMat tA false a b (Ok zero_node) (Ok gb)) X = Ok Y /\ ismat fresh use env c z Y /\
    forall x q, (x < c)%nat -> (q < z)%nat -> val (x + c * q) Y = sumR (fun y => val (q + z * y) a * at_ t (x + c * y)) r * val (x + c * q) gb.
Proof.
  intros Ht Mb (Ma & Ma' & Va) Fg Hz EX MX. assert (MX' : ismat fresh use env c r X) by (exists t; auto).
  unfold jac_step. cbn [bind]. rewrite Hz, andb_false_r. unfold mk_mat.
  destruct (tr_node fresh use env c z b Mb) as [Mb' _]. assert (Eb : mk_tr b = ETr b) by (destruct b; cbn in *; auto; contradiction). rewrite Eb.
  destruct (mat_node fresh use env z r c false true X (ETr b) MX' Mb') as [MA _].
  destruct (mat_node fresh use env c z r true false (mk_tr a) X Ma' MX') as [MB VB].
  destruct MA as (ta & EA & MA). destruct MB as (tb & EB & MB). rewrite EA, EB. cbn [bind].
  assert (MA' : ismat fresh use env z r (EMat false true X (ETr b))) by (exists ta; auto). assert (MB' : ismat fresh use env c z (EMat true false (mk_tr a) X)) by (exists tb; auto).
  destruct (tr_flag tA false true X (ETr b) z r MA') as [Ey (ta' & EA' & _)]. rewrite EA'. cbn [bind]. rewrite (times_zero _ Ey). cbn [bind].
  destruct (times_grad c z (EMat true false (mk_tr a) X) gb I MB' Fg Hz) as (x & E1 & E2 & E3 & E4). rewrite E1. cbn [bind mk_binary].
  rewrite zero_cview. exists x. split; [reflexivity|]. split; [exact E3|]. intros i q Hi Hq. rewrite E4 by nia. f_equal. rewrite VB by auto.
  apply sumR_ext. intros y Hy. rewrite Va by auto. f_equal. unfold nval. now rewrite EX.
Qed.

Lemma div_grid c x y : (x < c)%nat -> ((x + c * y) / c = y /\ (x + c * y) mod c = x)%nat.
Proof.
  intros H. rewrite (Nat.mul_comm c y). split.
  - rewrite Nat.div_add by lia. rewrite Nat.div_small by lia. lia.
  - rewrite Nat.mod_add by lia. apply Nat.mod_small. lia.
Qed.
Lemma ismat_gfit_mat E c r tA tB a b : ismat fresh use E c r (EMat tA tB a b) -> gfit fresh use [c; r] E (EMat tA tB a b).
Proof. intros M. exact (ismat_ev _ _ _ _ _ _ M). Qed.
Lemma free_mat c r b k x : has_leaf w b = false -> ismat fresh use env c r b -> ismat fresh use (envr k x) c r b.
Proof. intros H (t & E & M). exists t. split; [now rewrite free_eval|exact M]. Qed.
Lemma free_val b k x i : has_leaf w b = false -> nval fresh use (envr k x) i b = val i b.
Proof. intros H. unfold nval. now rewrite free_eval. Qed.
Definition next_uid (L : list (@jentry R)) (e u : @expr R) : @expr R := match L with [] => e | _ => u end.
Lemma next_same L tA tB a b u : same u u = true \/ L = [] -> same (next_uid L (EMat tA tB a b) u) (next_uid L (EMat tA tB a b) u) = true.
Proof. intros [H| ->]; [|apply same_mat]. destruct L; [apply same_mat|exact H]. Qed.

Definition Tleft (c z : nat) (b ga : @expr R) (T : nat -> nat -> R) (k i : nat) : R :=
  sumR (fun q => val (q + z * (i / c)) ga * T k (q + z * (i / c))%nat * val (i mod c + c * q) b) z.
Definition Tright (c z : nat) (a gb : @expr R) (T : nat -> nat -> R) (k i : nat) : R :=
  sumR (fun q => val (q + z * (i / c)) a * (val (i mod c + c * q) gb * T k (i mod c + c * q)%nat)) z.

Lemma inv_matl c r z tB a b ga u L T : inv z r a ga u L T -> not_tr a -> has_leaf w b = false -> transposable c z b -> is_zero_const Rnum ga = false ->
  let e := EMat false tB a b in
  inv c r e (EEq e e) (next_uid L e u) (L ++ [JMat false tB a b (Ok ga) (Ok zero_node)]) (Tleft c z b ga T).
Proof.
  intros Ha Ht Hb Tb Hz e. pose proof (inv_mat _ _ _ _ _ _ _ Ha) as Ma. pose proof Tb as (Mb & _). pose proof (ismat_pos _ _ _ _ _ _ Mb) as [Pc Pz].
  destruct (mat_node fresh use env c r z false tB a b Ma Mb) as [Me _]. destruct (ones_node fresh use env c r e Me) as [Mo Vo].
  pose proof Ha as [a1 a2 a3 a4 a5 a6 a7 a8]. constructor.
  - cbn. now rewrite a1.
  - unfold e at 1. cbn [info]. rewrite a2, (free_info _ _ _ _ _ b Hb). cbn [fst snd]. rewrite inherit_none, inherit_jac, a1. cbn [orb]. now rewrite push_jac.
  - left. unfold e. now apply next_same.
  - intros k x Hk. apply (mat_node fresh use (envr k x) c r z); auto. now apply free_mat.
  - intros k x Hk. apply ismat_gfit_mat. apply (mat_node fresh use (envr k x) c r z); auto. now apply free_mat.
  - exact (ismat_ev _ _ _ _ _ _ Mo).
  - intros k i Hk Hi. rewrite Vo by exact Hi. rewrite Rmult_1_l. unfold Tleft. destruct (grid_index c r i Pc Hi) as (Ei & Hx & Hy).
    set (x := (i mod c)%nat) in *. set (y := (i / c)%nat) in *.
    apply (lim_ext (fun r => sumR (fun q => nval fresh use (envr k r) (q + z * y) a * val (x + c * q) b) z)).
    { intros r1. rewrite Ei. unfold e. destruct (mat_node fresh use (envr k r1) c r z false tB a b (a4 k r1 Hk) (free_mat _ _ b k r1 Hb Mb)) as [_ V]. rewrite V by auto.
      apply sumR_ext. intros q Hq. now rewrite (free_val b k r1 _ Hb). }
    apply lim_sum. intros q Hq. apply (lim_ext (mult_real_fct (val (x + c * q) b) (fun r => nval fresh use (envr k r) (q + z * y) a))); [intros r1; unfold mult_real_fct; ring|].
    eapply lim_val; [|apply derivable_pt_lim_scal, a7; [exact Hk|nia]]. ring.
  - intros X t EX FX HX. assert (MX : matrix c r t) by (apply HX; destruct L; discriminate).
    destruct (step_left c r z tB a b ga X t Ht Ma Tb a6 Hz EX MX) as (Y & E1 & (ty & E2 & M2) & V2).
    rewrite jac_app, E1. cbn [bind]. destruct (a8 Y ty E2 (matrix_fits _ _ _ M2) (fun _ => M2)) as (Z & tz & Z1 & Z2 & Z3 & Z4 & Z5).
    exists Z, tz. split; [exact Z1|]. split; [exact Z2|]. split; [exact Z3|]. split; [intros _; now apply Z4|]. intros k Hk. rewrite (Z5 k Hk).
    rewrite !sumR_grid. apply sumR_ext. intros y Hy.
    transitivity (sumR (fun q => sumR (fun x => at_ t (x + c * y) * (val (q + z * y) ga * T k (q + z * y)%nat * val (x + c * q) b)) c) z).
    + apply sumR_ext. intros q Hq. replace (at_ ty (q + z * y)) with (val (q + z * y) Y) by (unfold nval; now rewrite E2). rewrite V2 by auto.
      rewrite Rmult_assoc, <- sumR_scal_r. apply sumR_ext. intros x Hx. ring.
    + rewrite sumR_swap. apply sumR_ext. intros x Hx. rewrite sumR_scal. f_equal. unfold Tleft. destruct (div_grid c x y Hx) as [-> ->]. reflexivity.
Qed.

Lemma inv_matr c r z tA a b gb u L T : inv c z b gb u L T -> not_tr b -> has_leaf w a = false -> transposable z r a -> is_zero_const Rnum gb = false ->
  let e := EMat tA false a b in
  inv c r e (EEq e e) (next_uid L e u) (L ++ [JMat tA false a b (Ok zero_node) (Ok gb)]) (Tright c z a gb T).
Proof.
  intros Hb Ht Ha Ta Hz e. pose proof (inv_mat _ _ _ _ _ _ _ Hb) as Mb. pose proof Ta as (Ma & _). pose proof (ismat_pos _ _ _ _ _ _ Mb) as [Pc Pz].
  destruct (mat_node fresh use env c r z tA false a b Ma Mb) as [Me _]. destruct (ones_node fresh use env c r e Me) as [Mo Vo].
  pose proof Hb as [b1 b2 b3 b4 b5 b6 b7 b8]. constructor.
  - cbn. rewrite b1. apply orb_true_r.
  - unfold e at 1. cbn [info]. rewrite b2, (free_info _ _ _ _ _ a Ha). cbn [fst snd]. rewrite inherit_none, inherit_jac, b1, orb_true_r. now rewrite push_jac.
  - left. unfold e. now apply next_same.
  - intros k x Hk. apply (mat_node fresh use (envr k x) c r z); auto. now apply free_mat.
  - intros k x Hk. apply ismat_gfit_mat. apply (mat_node fresh use (envr k x) c r z); auto. now apply free_mat.
  - exact (ismat_ev _ _ _ _ _ _ Mo).
  - intros k i Hk Hi. rewrite Vo by exact Hi. rewrite Rmult_1_l. unfold Tright. destruct (grid_index c r i Pc Hi) as (Ei & Hx & Hy).
    set (x := (i mod c)%nat) in *. set (y := (i / c)%nat) in *.
    apply (lim_ext (fun r => sumR (fun q => val (q + z * y) a * nval fresh use (envr k r) (x + c * q) b) z)).
    { intros r1. rewrite Ei. unfold e. destruct (mat_node fresh use (envr k r1) c r z tA false a b (free_mat _ _ a k r1 Ha Ma) (b4 k r1 Hk)) as [_ V]. rewrite V by auto.
      apply sumR_ext. intros q Hq. now rewrite (free_val a k r1 _ Ha). }
    apply lim_sum. intros q Hq. apply (lim_ext (mult_real_fct (val (q + z * y) a) (fun r => nval fresh use (envr k r) (x + c * q) b))); [intros r1; unfold mult_real_fct; ring|].
    eapply lim_val; [|apply derivable_pt_lim_scal, b7; [exact Hk|nia]]. ring.
  - intros X t EX FX HX. assert (MX : matrix c r t) by (apply HX; destruct L; discriminate).
    destruct (step_right c r z tA a b gb X t Ht Mb Ta b6 Hz EX MX) as (Y & E1 & (ty & E2 & M2) & V2).
    rewrite jac_app, E1. cbn [bind]. destruct (b8 Y ty E2 (matrix_fits _ _ _ M2) (fun _ => M2)) as (Z & tz & Z1 & Z2 & Z3 & Z4 & Z5).
    exists Z, tz. split; [exact Z1|]. split; [exact Z2|]. split; [exact Z3|]. split; [intros _; now apply Z4|]. intros k Hk. rewrite (Z5 k Hk).
    rewrite !sumR_grid.
    transitivity (sumR (fun q => sumR (fun y => sumR (fun x => at_ t (x + c * y) * (val (q + z * y) a * (val (x + c * q) gb * T k (x + c * q)%nat))) c) r) z).
    + apply sumR_ext. intros q Hq. rewrite sumR_swap. apply sumR_ext. intros x Hx.
      replace (at_ ty (x + c * q)) with (val (x + c * q) Y) by (unfold nval; now rewrite E2). rewrite V2 by auto.
      rewrite Rmult_assoc, <- sumR_scal_r. apply sumR_ext. intros y Hy. ring.
    + rewrite sumR_swap. apply sumR_ext. intros y Hy. rewrite sumR_swap. apply sumR_ext. intros x Hx. rewrite sumR_scal. f_equal. unfold Tright. destruct (div_grid c x y Hx) as [-> ->]. reflexivity.
Qed.

(** ---- the transposed variable as factor ---- *)
Definition one_tr : @expr R := ETr (EConst (const_scalar 1)).
Lemma one_tr_val : ev one_tr = Ok ([1; 1]%nat, [1]).
Proof. reflexivity. Qed.
Lemma one_tr_fit c r : fit c r one_tr.
Proof. exists ([1; 1]%nat, [1]). split; [reflexivity|]. split; [reflexivity|]. split; [reflexivity|]. now right. Qed.
Lemma tr_info : nfo (ETr (EVar w)) = (Ok one_tr, None).
Proof. cbn. rewrite Nat.eqb_refl. reflexivity. Qed.

Definition Ttl (c r z : nat) (b : @expr R) (k i : nat) : R := sumR (fun q => Tvar k (i / c + r * q) * val (i mod c + c * q) b) z.
Definition Ttr (c z : nat) (a : @expr R) (k i : nat) : R := sumR (fun q => val (q + z * (i / c)) a * Tvar k (q + z * (i mod c))) z.

Lemma inv_mat_tl c r z tB b : matrix r z (env w) -> nw = (r * z)%nat -> has_leaf w b = false -> transposable c z b ->
  let e := EMat true tB (ETr (EVar w)) b in
  inv c r e (EEq e e) e [JMat true tB (ETr (EVar w)) b (Ok one_tr) (Ok zero_node)] (Ttl c r z b).
Proof.
  intros Mw En Hb Tb e. pose proof (inv_var r z Mw En) as [v1 v2 v3 v4 v5 v6 v7 v8]. pose proof Tb as (Mb & Mb' & Vb). pose proof (ismat_pos _ _ _ _ _ _ Mb) as [Pc Pz].
  assert (Mv : ismat fresh use env r z (EVar w)) by (exists (env w); split; [reflexivity|exact Mw]).
  destruct (tr_node fresh use env r z (EVar w) Mv) as [Ma _].
  destruct (mat_node fresh use env c r z true tB (ETr (EVar w)) b Ma Mb) as [Me _]. destruct (ones_node fresh use env c r e Me) as [Mo Vo].
  assert (Mk : forall k x, (k < nw)%nat -> ismat fresh use (envr k x) c r e).
  { intros k x Hk. apply (mat_node fresh use (envr k x) c r z); [apply tr_node; now apply v4|now apply free_mat]. }
  constructor.
  - cbn. now rewrite Nat.eqb_refl.
  - unfold e at 1. cbn [info has_leaf]. rewrite (free_info _ _ _ _ _ b Hb), !Nat.eqb_refl. reflexivity.
  - left. apply same_mat.
  - exact Mk.
  - intros k x Hk. apply ismat_gfit_mat. now apply Mk.
  - exact (ismat_ev _ _ _ _ _ _ Mo).
  - intros k i Hk Hi. rewrite Vo by exact Hi. rewrite Rmult_1_l. unfold Ttl. destruct (grid_index c r i Pc Hi) as (Ei & Hx & Hy).
    set (x := (i mod c)%nat) in *. set (y := (i / c)%nat) in *.
    apply (lim_ext (fun r1 => sumR (fun q => nval fresh use (envr k r1) (y + r * q) (EVar w) * val (x + c * q) b) z)).
    { intros r1. rewrite Ei. unfold e. destruct (tr_node fresh use (envr k r1) r z (EVar w) (v4 k r1 Hk)) as [Mt Vt].
      destruct (mat_node fresh use (envr k r1) c r z true tB (ETr (EVar w)) b Mt (free_mat _ _ b k r1 Hb Mb)) as [_ V]. rewrite V by auto.
      apply sumR_ext. intros q Hq. rewrite (free_val b k r1 _ Hb). now rewrite Vt. }
    apply lim_sum. intros q Hq. apply (lim_ext (mult_real_fct (val (x + c * q) b) (fun r1 => nval fresh use (envr k r1) (y + r * q) (EVar w)))); [intros r1; unfold mult_real_fct; ring|].
    eapply lim_val; [|apply derivable_pt_lim_scal, v7; [exact Hk|nia]]. rewrite val_const, at_scalar. ring.
  - intros X t EX FX HX. assert (MX : matrix c r t) by (apply HX; discriminate). assert (MX' : ismat fresh use env c r X) by (exists t; auto).
    unfold jac_call. cbn [fold_right bind]. unfold jac_step. cbn [bind]. change (is_zero_const Rnum one_tr) with false. cbn [andb]. unfold mk_mat. cbn [mk_tr].
    destruct (mat_node fresh use env z r c false true X (mk_tr b) MX' Mb') as [MA VA].
    destruct (mat_node fresh use env c z r true false (EVar w) X Mv MX') as [MB _].
    destruct (tr_node fresh use env z r _ MA) as [MAt VAt]. destruct (tr_flag tB true false (EVar w) X c z MB) as [Ey (tb' & EB' & _)]. cbn [mk_tr] in Ey, EB'.
    destruct MA as (ta & EA & MA). destruct MB as (tb & EB & MB). rewrite EA, EB. cbn [bind]. pose proof MAt as (tat & EAt & _). rewrite EAt, EB'. cbn [bind].
    destruct (times_grad r z (ETr (EMat false true X (mk_tr b))) one_tr I MAt (one_tr_fit r z) eq_refl) as (Y & E1 & E2 & (ty & E3 & M3) & E4). rewrite E1. cbn [bind]. rewrite (times_zero _ Ey). cbn [bind mk_binary].
    rewrite (cview_nonconst Y E2), zero_cview. exists Y, ty. split; [reflexivity|]. split; [exact E3|].
    destruct (v8 Y ty E3 (matrix_fits _ _ _ M3)) as (Z & tz & Z1 & Z2 & Z3 & Z4 & Z5); [congruence|]. cbn in Z1. injection Z1 as <-. rewrite E3 in Z2. injection Z2 as <-.
    split; [exact Z3|]. split; [intros _; now apply Z4|]. intros k Hk. rewrite (Z5 k Hk). rewrite !sumR_grid. rewrite sumR_swap. apply sumR_ext. intros y Hy.
    transitivity (sumR (fun q => sumR (fun x => at_ t (x + c * y) * (Tvar k (y + r * q) * val (x + c * q) b)) c) z).
    + apply sumR_ext. intros q Hq. replace (at_ ty (y + r * q)) with (val (y + r * q) Y) by (unfold nval; now rewrite E3). rewrite E4 by nia. rewrite VAt, VA by auto.
      replace (val (y + r * q) one_tr) with 1 by reflexivity. rewrite Rmult_1_r, <- sumR_scal_r. apply sumR_ext. intros x Hx. rewrite Vb by auto. replace (val (x + c * y) X) with (at_ t (x + c * y)) by (unfold nval; now rewrite EX). ring.
    + rewrite sumR_swap. apply sumR_ext. intros x Hx. rewrite sumR_scal. f_equal. unfold Ttl. destruct (div_grid c x y Hx) as [-> ->]. reflexivity.
Qed.

Lemma inv_mat_tr c r z tA a : matrix z c (env w) -> nw = (z * c)%nat -> has_leaf w a = false -> transposable z r a ->
  let e := EMat tA true a (ETr (EVar w)) in
  inv c r e (EEq e e) e [JMat tA true a (ETr (EVar w)) (Ok zero_node) (Ok one_tr)] (Ttr c z a).
Proof.
  intros Mw En Ha Ta e. pose proof (inv_var z c Mw En) as [v1 v2 v3 v4 v5 v6 v7 v8]. pose proof Ta as (Ma & Ma' & Va). pose proof (ismat_pos _ _ _ _ _ _ Ma) as [Pz Pr].
  assert (Pc : (0 < c)%nat) by apply Mw.
  assert (Mv : ismat fresh use env z c (EVar w)) by (exists (env w); split; [reflexivity|exact Mw]).
  destruct (tr_node fresh use env z c (EVar w) Mv) as [Mb _].
  destruct (mat_node fresh use env c r z tA true a (ETr (EVar w)) Ma Mb) as [Me _]. destruct (ones_node fresh use env c r e Me) as [Mo Vo].
  assert (Mk : forall k x, (k < nw)%nat -> ismat fresh use (envr k x) c r e).
  { intros k x Hk. apply (mat_node fresh use (envr k x) c r z); [now apply free_mat|apply tr_node; now apply v4]. }
  constructor.
  - cbn. rewrite Nat.eqb_refl. apply orb_true_r.
  - unfold e at 1. cbn [info has_leaf]. rewrite (free_info _ _ _ _ _ a Ha), !Nat.eqb_refl, !orb_true_r. reflexivity.
  - left. apply same_mat.
  - exact Mk.
  - intros k x Hk. apply ismat_gfit_mat. now apply Mk.
  - exact (ismat_ev _ _ _ _ _ _ Mo).
  - intros k i Hk Hi. rewrite Vo by exact Hi. rewrite Rmult_1_l. unfold Ttr. destruct (grid_index c r i Pc Hi) as (Ei & Hx & Hy).
    set (x := (i mod c)%nat) in *. set (y := (i / c)%nat) in *.
    apply (lim_ext (fun r1 => sumR (fun q => val (q + z * y) a * nval fresh use (envr k r1) (q + z * x) (EVar w)) z)).
    { intros r1. rewrite Ei. unfold e. destruct (tr_node fresh use (envr k r1) z c (EVar w) (v4 k r1 Hk)) as [Mt Vt].
      destruct (mat_node fresh use (envr k r1) c r z tA true a (ETr (EVar w)) (free_mat _ _ a k r1 Ha Ma) Mt) as [_ V]. rewrite V by auto.
      apply sumR_ext. intros q Hq. rewrite (free_val a k r1 _ Ha). now rewrite Vt. }
    apply lim_sum. intros q Hq. apply (lim_ext (mult_real_fct (val (q + z * y) a) (fun r1 => nval fresh use (envr k r1) (q + z * x) (EVar w)))); [intros r1; unfold mult_real_fct; ring|].
    eapply lim_val; [|apply derivable_pt_lim_scal, v7; [exact Hk|nia]]. rewrite val_const, at_scalar. ring.
  - intros X t EX FX HX. assert (MX : matrix c r t) by (apply HX; discriminate). assert (MX' : ismat fresh use env c r X) by (exists t; auto).
    unfold jac_call. cbn [fold_right bind]. unfold jac_step. cbn [bind]. change (is_zero_const Rnum one_tr) with false. rewrite andb_false_r. unfold mk_mat. cbn [mk_tr].
    destruct (mat_node fresh use env z r c false true X (EVar w) MX' Mv) as [MA _].
    destruct (mat_node fresh use env c z r true false (mk_tr a) X Ma' MX') as [MB VB].
    destruct (tr_node fresh use env c z _ MB) as [MBt VBt]. destruct (tr_flag tA false true X (EVar w) z r MA) as [Ey (ta' & EA' & _)]. cbn [mk_tr] in Ey, EA'.
    destruct MA as (ta & EA & MA). destruct MB as (tb & EB & MB). rewrite EA, EB. cbn [bind]. pose proof MBt as (tbt & EBt & _). rewrite EA', EBt. cbn [bind].
    rewrite (times_zero _ Ey). cbn [bind].
    destruct (times_grad z c (ETr (EMat true false (mk_tr a) X)) one_tr I MBt (one_tr_fit z c) eq_refl) as (Y & E1 & E2 & (ty & E3 & M3) & E4). rewrite E1. cbn [bind mk_binary].
    rewrite zero_cview. exists Y, ty. split; [reflexivity|]. split; [exact E3|].
    destruct (v8 Y ty E3 (matrix_fits _ _ _ M3)) as (Z & tz & Z1 & Z2 & Z3 & Z4 & Z5); [congruence|]. cbn in Z1. injection Z1 as <-. rewrite E3 in Z2. injection Z2 as <-.
    split; [exact Z3|]. split; [intros _; now apply Z4|]. intros k Hk. rewrite (Z5 k Hk). rewrite !sumR_grid.
    transitivity (sumR (fun x => sumR (fun y => at_ t (x + c * y) * sumR (fun q => val (q + z * y) a * Tvar k (q + z * x)) z) r) c).
    + apply sumR_ext. intros x Hx. transitivity (sumR (fun q => sumR (fun y => at_ t (x + c * y) * (val (q + z * y) a * Tvar k (q + z * x))) r) z).
      * apply sumR_ext. intros q Hq. replace (at_ ty (q + z * x)) with (val (q + z * x) Y) by (unfold nval; now rewrite E3). rewrite E4 by nia. rewrite VBt, VB by auto.
        replace (val (q + z * x) one_tr) with 1 by reflexivity. rewrite Rmult_1_r, <- sumR_scal_r. apply sumR_ext. intros y Hy. rewrite Va by auto. replace (val (x + c * y) X) with (at_ t (x + c * y)) by (unfold nval; now rewrite EX). ring.
      * rewrite sumR_swap. apply sumR_ext. intros y Hy. now rewrite sumR_scal.
    + rewrite sumR_swap. apply sumR_ext. intros y Hy. apply sumR_ext. intros x Hx. f_equal. unfold Ttr. destruct (div_grid c x y Hx) as [-> ->]. reflexivity.
Qed.

(** ---- biases ---- *)
Lemma fold_left_sum l a : fold_left Rplus l a = a + sumR (fun i => nth i l 0) (length l).
Proof.
  revert a. induction l as [|x l IH]; intros a; [cbn; lra|]. cbn [fold_left length]. rewrite IH.
  change (S (length l)) with (1 + length l)%nat. rewrite sumR_app. cbn [sumn nth Nat.add]. lra.
Qed.
Lemma fold1_sum (f : nat -> R) n : (0 < n)%nat -> fold1 Rplus 0 (map f (seq 0 n)) = sumR f n.
Proof.
  intros H. destruct n as [|n]; [lia|]. cbn [seq map fold1]. rewrite fold_left_sum, map_length, seq_length.
  change (S n) with (1 + n)%nat. rewrite sumR_app. cbn [sumn Nat.add]. rewrite Rplus_0_l. f_equal. apply sumR_ext. intros i Hi.
  rewrite (nth_indep _ 0 (f 0%nat)) by (rewrite map_length, seq_length; lia). rewrite map_nth, seq_nth by lia. reflexivity.
Qed.
Lemma sumax_node c r X t : ev X = Ok t -> matrix c r t ->
  exists u, ev (ESumAx 1 X) = Ok u /\ vector c u /\ forall k, (k < c)%nat -> at_ u k = sumR (fun y => at_ t (k + c * y)) r.
Proof.
  intros EX M. pose proof M as (Hc & Hr & Ln & Sh). pose proof (matrix_def _ _ _ M) as Fd. pose proof (matrix_n _ _ _ M) as Nt. destruct t as [st dt]. cbn [fst snd] in *.
  destruct Sh as [->|[S1 ->]].
  - assert (Es : compress_shape 1 [c; r] = Ok [c]).
    { destruct (C18_reduced_shape_lemma [c; r] 1 Fd) as [_ H]. destruct (H ltac:(cbn; lia)) as [-> _]. reflexivity. }
    destruct (C18_compress_folds_axis_lemma R Rplus 0 [c; r] [c] 1 dt (map fresh (seq 0 (n_elems [c]))) Fd ltac:(cbn; lia) Es ltac:(lia) ltac:(now rewrite map_length, seq_length)) as (d & E1 & E2 & E3).
    exists ([c], d). split; [|split].
    + cbn [eval]. rewrite EX. cbn [bind]. apply forward_fresh.
      * cbn [map]. unfold shaper1. cbn [rd nth_error bind fst]. exact Es.
      * cbn. destruct c; [lia|reflexivity].
      * cbn [map]. unfold forward1. cbn [rd nth_error bind fst snd]. exact E1.
    + split; [exact Hc|]. split; [reflexivity|]. cbn [snd]. rewrite E2. cbn. lia.
    + intros k Hk. cbn in E2. specialize (E3 [k; 0]%nat). cbn [set_nth] in E3.
      assert (B : in_bounds [c; 1]%nat [k; 0]%nat) by (repeat constructor; lia). specialize (E3 B).
      replace (offset [c; 1]%nat [k; 0]%nat) with k in E3 by (cbn; lia). unfold along in E3. cbn [set_nth nth] in E3. rewrite fold1_sum in E3 by exact Hr.
      assert (Ed : at_ ([c], d) k = nth k d 0).
      { unfold at_. cbn [snd]. destruct d as [|v [|v' l]]; try reflexivity. cbn in E2. assert (k = 0)%nat by lia. now subst. }
      rewrite Ed, (nth_error_nth _ _ _ E3). apply sumR_ext. intros y Hy. rewrite (at_entry c r ([c; r], dt)) by auto. unfold entry. cbn [snd]. f_equal. cbn. lia.
  - assert (c = 1 /\ r = 1)%nat as [-> ->] by nia. destruct dt as [|v [|? ?]]; cbn in Ln; try lia.
    exists ([1]%nat, [v]). split; [|split].
    + cbn [eval]. rewrite EX. cbn [bind]. apply forward_fresh; reflexivity.
    + split; [lia|]. split; reflexivity.
    + intros k Hk. cbn. lra.
Qed.

Lemma axb_zero ga : exists g', mk_axb Rnum 1 ga zero_node = Ok g' /\ (nonconst ga -> g' = ga) /\
  forall c r, (0 < n_elems [c; r])%nat -> fit c r ga -> fit c r g' /\ forall i, val i g' = val i ga.
Proof.
  unfold mk_axb. rewrite zero_cview. destruct (cview_of Rnum ga) eqn:C.
  - exists ga. auto.
  - exists zero_node. split; [reflexivity|]. split; [intros H; rewrite cview_nonconst in C by exact H; discriminate|].
    intros c r Np F. split; [apply gfit_const_intro, fits_scalar|]. intros i. destruct (cview_ok fresh use [c; r] env Np ga) as [V|V]; [|contradiction]. rewrite C in V. rewrite V. reflexivity.
  - assert (Cz : const_is Rnum (const_scalar 0) (n_zero Rnum) = true) by (unfold const_is; cbn; now apply Reqb_iff).
    cbn [mk_unary]. rewrite Cz. destruct (n_eqb Rnum v (n_zero Rnum)) eqn:E.
    + apply Reqb_iff in E. cbn in E. subst v. exists zero_node. split; [reflexivity|]. split; [intros H; rewrite cview_nonconst in C by exact H; discriminate|].
      intros c r Np F. split; [apply gfit_const_intro, fits_scalar|]. intros i. destruct (cview_ok fresh use [c; r] env Np ga) as [V|V]; [|contradiction]. rewrite C in V. rewrite V. reflexivity.
    + exists (EConst (const_scalar v)). split; [reflexivity|]. split; [intros H; rewrite cview_nonconst in C by exact H; discriminate|].
      intros c r Np F. split; [apply gfit_const_intro, fits_scalar|]. intros i. destruct (cview_ok fresh use [c; r] env Np ga) as [V|V]; [|contradiction]. rewrite C in V. rewrite V. reflexivity.
Qed.

Lemma inv_bias c r a b ga u L T tb : inv c r a ga u L T -> has_leaf w b = false -> ev b = Ok tb -> vector c tb ->
  exists g', inv c r (EAxB 1 a b) g' u L T /\ (nonconst ga -> g' = ga) /\ forall i, (i < c * r)%nat -> val i g' = val i ga.
Proof.
  intros Ha Hb Eb Vb. destruct (axb_zero ga) as (g' & E1 & E2 & E3). exists g'. pose proof Ha as [a1 a2 a3 a4 a5 a6 a7 a8]. destruct (E3 c r (npos _ _ _ (inv_mat _ _ _ _ _ _ _ Ha)) a6) as [F' V'].
  split; [|split; [exact E2|intros i _; apply V']].
  assert (Bk : forall k x, (k < nw)%nat -> ismat fresh use (envr k x) c r (EAxB 1 a b) /\
    forall x0 y, (x0 < c)%nat -> (y < r)%nat -> nval fresh use (envr k x) (x0 + c * y) (EAxB 1 a b) = nval fresh use (envr k x) (x0 + c * y) a + nth x0 (snd tb) 0).
  { intros k x Hk. apply bias_node; auto. now rewrite free_eval. }
  constructor; auto.
  - cbn [has_leaf]. now rewrite a1.
  - cbn [info]. rewrite a2, (free_info _ _ _ _ _ b Hb). cbn [fst snd]. rewrite inherit_none, inherit_jac, Hb, term_jac, a1. cbn [orb bind]. now rewrite E1.
  - intros k x Hk. now apply Bk.
  - intros k x Hk. destruct (Bk k x Hk) as [M _]. exact (ismat_ev _ _ _ _ _ _ M).
  - intros k i Hk Hi. rewrite V'. assert (Pc : (0 < c)%nat) by apply Vb. destruct (grid_index c r i Pc Hi) as (Ei & Hx & Hy).
    apply (lim_ext (plus_fct (fun x => nval fresh use (envr k x) i a) (fct_cte (nth (i mod c) (snd tb) 0)))).
    { intros x. unfold plus_fct, fct_cte. destruct (Bk k x Hk) as [_ V]. specialize (V (i mod c)%nat (i / c)%nat Hx Hy). rewrite <- Ei in V. symmetry. exact V. }
    apply (lim_val _ _ (val i ga * T k i + 0)); [ring|]. apply derivable_pt_lim_plus; [now apply a7|apply derivable_pt_lim_const].
Qed.

(** the variable as bias *)
Definition Tbias (c k i : nat) : R := if (i mod c =? k)%nat then 1 else 0.
Context (same_axb : forall ax a b, same (EAxB ax a b) (EAxB ax a b) = true).
Lemma inv_biasvar c r a : vector c (env w) -> nw = c -> has_leaf w a = false -> ismat fresh use env c r a ->
  inv c r (EAxB 1 a (EVar w)) (EConst (const_scalar 1)) (EAxB 1 a (EVar w)) [JSumAx 1] (Tbias c).
Proof.
  intros Vw En Ha Ma. pose proof Vw as (Pc & Sw & Lw). pose proof (ismat_pos _ _ _ _ _ _ Ma) as [_ Pr].
  assert (Fw : fits [c] (env w)) by (split; [rewrite Sw; cbn; destruct c; [lia|reflexivity]|]; split; [rewrite Lw, Sw; cbn; lia|now left]).
  assert (Vk : forall k x, vector c (envr k x w)).
  { intros k x. unfold set_elem. rewrite Nat.eqb_refl. split; [exact Pc|]. split; [exact Sw|]. cbn [snd]. destruct (snd (env w)) as [|v [|v' l]] eqn:E; rewrite ?length_set_nth; exact Lw. }
  assert (Bk : forall k x, ismat fresh use (envr k x) c r (EAxB 1 a (EVar w)) /\
    forall x0 y, (x0 < c)%nat -> (y < r)%nat -> nval fresh use (envr k x) (x0 + c * y) (EAxB 1 a (EVar w)) = nval fresh use (envr k x) (x0 + c * y) a + nth x0 (snd (envr k x w)) 0).
  { intros k x. apply bias_node; [now apply free_mat|reflexivity|apply Vk]. }
  constructor.
  - cbn. rewrite Nat.eqb_refl. apply orb_true_r.
  - cbn [info has_leaf]. rewrite (free_info _ _ _ _ _ a Ha), !Nat.eqb_refl, !orb_true_r. cbn [fst snd inherit push_front terminal j_term bind]. unfold mk_axb. rewrite zero_cview. reflexivity.
  - left. apply same_axb.
  - intros k x Hk. apply Bk.
  - intros k x Hk. destruct (Bk k x) as [M _]. exact (ismat_ev _ _ _ _ _ _ M).
  - apply gfit_const_intro, fits_scalar.
  - intros k i Hk Hi. rewrite val_const, at_scalar, Rmult_1_l. destruct (grid_index c r i Pc Hi) as (Ei & Hx & Hy). unfold Tbias.
    assert (At : forall x, nth (i mod c) (snd (envr k x w)) 0 = at_ (envr k x w) (i mod c)).
    { intros x. unfold at_. pose proof (Vk k x) as (_ & _ & Lk). destruct (snd (envr k x w)) as [|v [|v' l]]; try reflexivity. cbn in Lk. assert (Em : (i mod c = 0)%nat) by lia. now rewrite Em. }
    apply (lim_ext (plus_fct (fct_cte (val i a)) (fun x => at_ (envr k x w) (i mod c)))).
    { intros x. unfold plus_fct, fct_cte. destruct (Bk k x) as [_ V]. specialize (V (i mod c)%nat (i / c)%nat Hx Hy). rewrite <- Ei in V. rewrite V, (free_val a k x i Ha), At. reflexivity. }
    eapply lim_val; [apply Rplus_0_l|]. apply derivable_pt_lim_plus; [apply derivable_pt_lim_const|].
    destruct (Nat.eqb_spec (i mod c) k) as [Ek|Ek].
    + apply (lim_ext id); [|apply derivable_pt_lim_id]. intros x. unfold id. rewrite Ek. symmetry. apply (set_elem_at_self [c]); [exact Fw|cbn; lia].
    + apply (lim_ext (fct_cte (at_ (env w) (i mod c)))); [|apply derivable_pt_lim_const]. intros x. unfold fct_cte. symmetry. apply set_elem_at_other; [lia|exact Ek].
  - intros X t EX FX HX. assert (MX : matrix c r t) by (apply HX; discriminate). destruct (sumax_node c r X t EX MX) as (y & E1 & V1 & E2).
    exists (ESumAx 1 X), y. split; [reflexivity|]. split; [exact E1|]. destruct V1 as (_ & S1 & L1). split; [|split].
    + split; [rewrite S1; cbn; destruct c; [lia|reflexivity]|]. split; [rewrite S1, L1; cbn; lia|]. left. congruence.
    + intros _. congruence.
    + intros k Hk. rewrite E2 by lia. rewrite sumR_grid. apply sumR_ext. intros y0 Hy0.
      rewrite <- (sumR_delta (fun x => at_ t (x + c * y0)) c k) by lia. apply sumR_ext. intros x Hx. f_equal. unfold Tbias. destruct (div_grid c x y0 Hx) as [_ ->]. reflexivity.
Qed.

(** ---- reading off the derivative ---- *)
(** the gradient node's value can be handed to the Jacobian list *)
Definition ready (c r : nat) (g : @expr R) (L : list (@jentry R)) : Prop := L <> [] -> ismat fresh use env c r g.

Lemma inv_derive c r e g u L T : inv c r e g u L T -> ready c r g L ->
  exists Y y, derive Rnum fresh use same env w e = Ok Y /\ ev Y = Ok y /\ fits (fst (env w)) y /\ (ismat fresh use env c r g -> length (snd y) = nw) /\
    forall k, (k < nw)%nat -> derivable_pt_lim (fun x => sumR (fun i => nval fresh use (envr k x) i e) (c * r)) (r0 k) (at_ y k).
Proof.
  intros H Hr. pose proof H as [a1 a2 a3 a4 a5 a6 a7 a8]. destruct (gfit_ev _ _ _ _ g a6) as (t & Et & Ft).
  destruct (a8 g t Et Ft) as (Y & y & E1 & E2 & E3 & E4 & E5).
  { intros HL. destruct (Hr HL) as (t' & Et' & M). rewrite Et in Et'. injection Et' as <-. exact M. }
  exists Y, y. split; [|split; [exact E2|split; [exact E3|split]]].
  - unfold derive, derive_of. rewrite a2. cbn [fst snd bind]. destruct L; exact E1.
  - intros (t' & Et' & M). rewrite Et in Et'. injection Et' as <-. auto.
  - intros k Hk. rewrite (E5 k Hk). apply (lim_sum (fun i x => nval fresh use (envr k x) i e)). intros i Hi.
    replace (at_ t i) with (val i g) by (unfold nval; now rewrite Et). now apply a7.
Qed.

(** ... of the sum over all elements *)
Lemma sum_node E c r a : ismat fresh use E c r a -> exists t, eval Rnum fresh use E (ESum a) = Ok t /\ fst t = [1%nat] /\ length (snd t) = 1%nat /\ forall i, at_ t i = sumR (fun i => nval fresh use E i a) (c * r).
Proof.
  intros (t & Et & M). pose proof (matrix_def _ _ _ M) as Fd. pose proof (matrix_n _ _ _ M) as Nt. pose proof M as (Hc & Hr & Ln & _).
  exists ([1%nat], [fold1 Rplus 0 (snd t)]). split; [|split; [reflexivity|split; [reflexivity|]]].
  - cbn [eval]. rewrite Et. cbn [bind]. apply forward_fresh.
    + reflexivity.
    + reflexivity.
    + cbn [map]. unfold forward1. cbn [rd nth_error bind fst snd]. apply C18_compress_all_lemma; auto. lia.
  - intros j. unfold at_. cbn [snd]. assert (El : snd t = map (fun i => at_ t i) (seq 0 (c * r))).
    { apply nth_error_ext_lt; [rewrite map_length, seq_length; lia|]. intros i Hi. symmetry. rewrite nth_error_map, (nth_error_nth' _ 0%nat) by (rewrite seq_length; lia). rewrite seq_nth by lia. cbn [option_map].
      rewrite (nth_error_nth' _ 0) by exact Hi. f_equal. unfold at_. destruct (snd t) as [|v [|v' l]]; try reflexivity. cbn in Hi. assert (i = 0%nat) by lia. now subst. }
    rewrite El. rewrite fold1_sum by nia. apply sumR_ext. intros i Hi. unfold nval. now rewrite Et.
Qed.
Lemma sum_info a : has_leaf w a = true -> terminal (inherit same None (snd (nfo a))) = false -> derive Rnum fresh use same env w (ESum a) = derive Rnum fresh use same env w a.
Proof.
  intros Hl Ht. unfold derive, derive_of. cbn [info fst snd]. rewrite Hl, Ht. destruct (fst (nfo a)); cbn [bind]; try reflexivity.
  destruct (snd (nfo a)) as [[j_u [|en l] tm]|]; reflexivity.
Qed.
End Net.
