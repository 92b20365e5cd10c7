(** Laws of gradients through products, sums and networks: C37. *)
From Coq Require Import String Reals Lra Lia ClassicalDescription.
From Verif Require Import Common ShapeModel ShapeProofs ShapeSpec TransformSpec TransformModel TransformProofs TransformLaws MatmulSpec MatmulModel ElemModel ElemProofs NumSpec RealNum ElemLaws GradModel GradSpec GradProofs GradLaws MatrixSpec MatrixProofs MlpModel MlpProofs MlpLaws CopyLaws NetSpec NetProofs NetMlpProofs NetSymProofs.
Local Open Scope list_scope.
Local Open Scope R_scope.

(** a node whose value is a matrix of c columns and r rows; if it is a transpose, then one of
    a matrix that is not itself a transpose (transpose never builds another) *)
Definition factor fresh use env (c r : nat) (b : @expr R) : Prop :=
  (exists t, eval Rnum fresh use env b = Ok t /\ matrix c r t) /\
  match b with ETr b' => (exists t, eval Rnum fresh use env b' = Ok t /\ matrix r c t) /\ (forall b'', b' <> ETr b'') | _ => True end.

(** [y] is the gradient of the sum of all elements of node [e] with respect to variable [w]:
    derive returns a node with this value, it has as many elements as the variable, and
    each is the derivative by the variable's element at the same place *)
Definition sum_gradient fresh use same env (w : nat) (e : @expr R) (y : tens R) : Prop :=
  (exists Y, derive Rnum fresh use same env w e = Ok Y /\ eval Rnum fresh use env Y = Ok y) /\
  fits (fst (env w)) y /\ length (snd y) = length (snd (env w)) /\
  forall k, (k < length (snd (env w)))%nat ->
    derivable_pt_lim (fun x => total (eval Rnum fresh use (set_elem env w k x) e)) (at_ (env w) k) (at_ y k).

Lemma mat_env0 c r env w : matrix c r (env w) -> forall k v, (k < length (snd (env w)))%nat -> set_elem env w k (at_ (env w) k) v = env v.
Proof. intros M k v Hk. apply (set_elem_same [c; r]); [now apply matrix_fits|]. destruct M as (_ & _ & L & _). rewrite L in Hk. cbn. lia. Qed.
Lemma vec_fits c (t : tens R) : vector c t -> fits [c] t.
Proof. intros (Hc & S & L). split; [rewrite S; cbn; destruct c; [lia|reflexivity]|]. split; [rewrite L, S; cbn; lia|now left]. Qed.
Lemma vec_env0 c env w : vector c (env w) -> forall k v, (k < length (snd (env w)))%nat -> set_elem env w k (at_ (env w) k) v = env v.
Proof. intros M k v Hk. apply (set_elem_same [c]); [now apply vec_fits|]. destruct M as (_ & _ & L). rewrite L in Hk. cbn. lia. Qed.

Lemma factor_tr fresh use (same : @expr R -> @expr R -> bool) (same_ok : forall a b, same a b = true -> a = b) env c r b : factor fresh use env c r b -> transposable fresh use env c r b /\ transposable fresh use env r c (mk_tr b).
Proof.
  intros [M H]. assert (D : not_tr b \/ exists b', b = ETr b') by (destruct b; cbn; eauto).
  destruct D as [Hn|[b' ->]].
  - split; [now apply (transposable_node fresh use same same_ok)|]. assert (E : mk_tr b = ETr b) by (destruct b; cbn in *; auto; contradiction). rewrite E. apply (transposable_tr fresh use env). exact M.
  - destruct H as [M' Hn]. split; [apply (transposable_tr fresh use env); exact M'|]. cbn [mk_tr]. apply (transposable_node fresh use same same_ok); [|exact M'].
    destruct b'; cbn; auto. now apply (Hn b').
Qed.
Lemma factor_flag fresh use (same : @expr R -> @expr R -> bool) (same_ok : forall a b, same a b = true -> a = b) env c r (t : bool) b :
  factor fresh use env (if t then r else c) (if t then c else r) b -> transposable fresh use env c r (if t then mk_tr b else b).
Proof. intros H. apply (factor_tr fresh use same same_ok) in H. destruct t; apply H. Qed.
Lemma free_flag (t : bool) w (b : @expr R) : has_leaf w b = false -> has_leaf w (if t then mk_tr b else b) = false.
Proof. intros H. destruct t; [|exact H]. destruct b; exact H. Qed.

Lemma result_gradient fresh use same env w c r e g u L T : (0 < length (snd (env w)))%nat ->
  inv fresh use same env w (length (snd (env w))) c r e g u L T -> ismat fresh use env c r g -> exists y, sum_gradient fresh use same env w e y.
Proof.
  intros Hn H M. destruct (inv_result fresh use same env w _ Hn c r e g u L T H M) as (Y & y & E1 & E2 & E3 & E4 & E5).
  exists y. split; [eauto|]. auto.
Qed.

(** ---- C37 ---- *)

(** The gradient of a matrix product with respect to a variable that is its first factor,
    whatever the transposition flags, is the derivative of the sum of its elements. *)
Lemma C37_matmul_left_lemma :
  forall fresh use same env (w : nat) (b : @expr R) (tA tB : bool) (c r z : nat),
    node_identity same ->
    matrix (if tA then r else z) (if tA then z else r) (env w) ->
    has_leaf w b = false -> factor fresh use env (if tB then z else c) (if tB then c else z) b ->
    exists y, sum_gradient fresh use same env w (mk_mat (EVar w) b tA tB) y.
Proof.
  intros fresh use same env w b tA tB c r z (I1 & I2 & I3) Mw Hb Fb.
  pose proof (factor_flag fresh use same I1 env c z tB b Fb) as Tb. pose proof (free_flag tB w b Hb) as Hb'.
  pose proof (mat_env0 _ _ _ _ Mw) as E0. pose proof Mw as (P1 & P2 & Ln & _). assert (Np : (0 < length (snd (env w)))%nat) by (rewrite Ln; nia).
  unfold mk_mat. destruct tA; cbn [mk_tr].
  - assert (Ln' : length (snd (env w)) = (r * z)%nat) by lia.
    pose proof (inv_mat_tl fresh use same I1 I2 env w _ Np c r z tB _ Mw Ln' Hb' Tb) as H. cbn zeta in H.
    eapply result_gradient; [exact Np|exact H|]. apply ones_node. apply (inv_mat fresh use same env w _ Np E0 _ _ _ _ _ _ _ H).
  - assert (Ln' : length (snd (env w)) = (z * r)%nat) by lia.
    pose proof (inv_var fresh use same env w _ Np z r Mw Ln') as H0.
    assert (Z : is_zero_const Rnum (EConst (const_scalar 1)) = false) by (cbn [is_zero_const]; apply scalar_not_zero; lra).
    pose proof (inv_matl fresh use same I1 I2 env w _ Np E0 c r z tB (EVar w) _ _ _ _ _ H0 I Hb' Tb Z) as H. cbn zeta in H.
    eapply result_gradient; [exact Np|exact H|]. apply ones_node. apply (inv_mat fresh use same env w _ Np E0 _ _ _ _ _ _ _ H).
Qed.

(** The same for the second factor. *)
Lemma C37_matmul_right_lemma :
  forall fresh use same env (w : nat) (a : @expr R) (tA tB : bool) (c r z : nat),
    node_identity same ->
    matrix (if tB then z else c) (if tB then c else z) (env w) ->
    has_leaf w a = false -> factor fresh use env (if tA then r else z) (if tA then z else r) a ->
    exists y, sum_gradient fresh use same env w (mk_mat a (EVar w) tA tB) y.
Proof.
  intros fresh use same env w a tA tB c r z (I1 & I2 & I3) Mw Ha Fa.
  pose proof (factor_flag fresh use same I1 env z r tA a Fa) as Ta. pose proof (free_flag tA w a Ha) as Ha'.
  pose proof (mat_env0 _ _ _ _ Mw) as E0. pose proof Mw as (P1 & P2 & Ln & _). assert (Np : (0 < length (snd (env w)))%nat) by (rewrite Ln; nia).
  unfold mk_mat. destruct tB; cbn [mk_tr].
  - assert (Ln' : length (snd (env w)) = (z * c)%nat) by lia.
    pose proof (inv_mat_tr fresh use same I1 I2 env w _ Np c r z tA _ Mw Ln' Ha' Ta) as H. cbn zeta in H.
    eapply result_gradient; [exact Np|exact H|]. apply ones_node. apply (inv_mat fresh use same env w _ Np E0 _ _ _ _ _ _ _ H).
  - assert (Ln' : length (snd (env w)) = (c * z)%nat) by lia.
    pose proof (inv_var fresh use same env w _ Np c z Mw Ln') as H0.
    assert (Z : is_zero_const Rnum (EConst (const_scalar 1)) = false) by (cbn [is_zero_const]; apply scalar_not_zero; lra).
    pose proof (inv_matr fresh use same I1 I2 env w _ Np E0 c r z tA _ (EVar w) _ _ _ _ H0 I Ha' Ta Z) as H. cbn zeta in H.
    eapply result_gradient; [exact Np|exact H|]. apply ones_node. apply (inv_mat fresh use same env w _ Np E0 _ _ _ _ _ _ _ H).
Qed.

Lemma mlp_fresh of_nat scope n hs lvl (st : @store R) ls st' : mlp_layers_from Rnum of_nat scope n hs lvl st = (ls, st') ->
  let params := flat_map (fun p => fc_variables (fst p)) ls in
  NoDup params /\ (forall p, In p params -> (length st <= p < length st')%nat) /\ (length st <= length st')%nat.
Proof.
  cbn zeta. revert n lvl st ls st'. induction hs as [|[c f] hs IH]; intros n lvl st ls st'; cbn [mlp_layers_from].
  - intros [= <- <-]. cbn. split; [constructor|]. split; [contradiction|lia].
  - unfold fc_new. cbn [fc_vars_from alloc]. match goal with |- context [mlp_layers_from Rnum of_nat scope c hs (S lvl) ?s] => set (st1 := s) end.
    destruct (mlp_layers_from Rnum of_nat scope c hs (S lvl) st1) as [ls' st2] eqn:E. intros [= <- <-].
    assert (L1 : length st1 = S (S (length st))) by (unfold st1; rewrite !app_length; cbn; lia).
    destruct (IH _ _ _ _ _ E) as (N & B & Le). cbn [flat_map fst fc_variables fc_wb app snd]. rewrite app_length. cbn [length].
    split; [|split].
    + constructor; [|constructor; [|exact N]].
      * intros [H|H]; [lia|]. apply B in H. lia.
      * intros H. apply B in H. lia.
    + intros p [<-|[<-|H]]; [lia|lia|]. apply B in H. lia.
    + lia.
Qed.
Lemma chain_params (env : nat -> tens R) st n ls hs p : chain st n ls hs -> (0 < n)%nat -> Forall (fun h : nat * @act R => (0 < fst h)%nat) hs ->
  (forall p, In p (flat_map (fun p => fc_variables (fst p)) ls) -> initialized env st p) -> In p (flat_map (fun p => fc_variables (fst p)) ls) ->
  (exists c r, matrix c r (env p)) \/ exists c, vector c (env p).
Proof.
  revert n hs. induction ls as [|[l f] ls IH]; intros n [|[c f'] hs]; cbn [chain]; try contradiction. intros (<- & (q & b & vw & vb & W1 & W2 & W3 & W4 & W5) & C) Hn Hp Hi. inversion Hp; subst. cbn [fst] in *.
  cbn [flat_map fst] in *. assert (Ev : fc_variables l = [q; b]) by (unfold fc_variables; now rewrite W1). rewrite Ev in *. cbn [app In] in *.
  intros [<-|[<-|H]].
  - left. exists c, n. apply (init_matrix _ _ _ _ _ _ (Hi q (or_introl eq_refl)) W2 W3); auto.
  - right. exists c. apply (init_vector _ _ _ _ _ (Hi b (or_intror (or_introl eq_refl))) W4 W5); auto.
  - apply (IH c hs); auto.
Qed.
Lemma last_size_cols (hs : list (nat * @act R)) n c : last_size hs (Some n) = Some c -> out_cols n hs = c.
Proof. revert n. induction hs as [|[m f] hs IH]; intros n; cbn; [congruence|]. apply IH. Qed.

(** Training a new mlp of any sizes and any batch: for every weight and bias, the gradient of
    the squared error node that gd_net differentiates exists, has the parameter's size, and
    each of its elements is the derivative of the summed error by that element of the
    parameter. *)
Lemma C37_training_gradient_lemma :
  forall fresh use same (of_nat : nat -> R) (env : nat -> tens R) (n r c : nat) (hs : list (nat * @act R)) scope st m st' train_in expected p,
    node_identity same ->
    (0 < n)%nat -> (0 < r)%nat -> Forall (fun h => (0 < fst h)%nat /\ smooth_act same (snd h)) hs ->
    mlp_new Rnum of_nat n hs scope st = (m, st') -> m_nout m = Some c ->
    (forall q, In q (mlp_variables m) -> initialized env st' q) ->
    matrix n r (env train_in) -> fst (env train_in) = [n; r] -> matrix c r (env expected) ->
    ~ In train_in (mlp_variables m) -> ~ In expected (mlp_variables m) ->
    In p (mlp_variables m) ->
    exists E y, gd_error Rnum same (CMlp m) train_in expected [n; r] = Ok E /\ sum_gradient fresh use same env p E y.
Proof.
  intros fresh use same of_nat env n r c hs scope st m st' ti ex p (I1 & I2 & I3) Hn Hr Ha Hm Hc Hi Mt St Mx Nt Nx Hp.
  unfold mlp_new in Hm. destruct (mlp_layers_from _ _ _ _ _ _ _) as [ls st1] eqn:El. injection Hm as <- <-. cbn [m_nout mlp_variables m_layers] in *. unfold mlp_variables in *. cbn [m_layers] in *.
  destruct (mlp_chain Rnum of_nat _ _ _ _ _ _ _ El) as (C & _). destruct (mlp_fresh _ _ _ _ _ _ _ _ El) as (Nd & _ & _).
  assert (Hpos : Forall (fun h : nat * @act R => (0 < fst h)%nat) hs) by (eapply Forall_impl; [|exact Ha]; intros h Hh; apply Hh).
  set (nw := length (snd (env p))).
  assert (P : (0 < nw)%nat /\ forall k v, (k < nw)%nat -> set_elem env p k (at_ (env p) k) v = env v).
  { destruct (chain_params env st1 n ls hs p C Hn Hpos Hi Hp) as [(c' & r' & M)|(c' & V)].
    - split; [unfold nw; destruct M as (? & ? & -> & _); nia|]. now apply (mat_env0 c' r').
    - split; [unfold nw; destruct V as (? & ? & ->); lia|]. now apply (vec_env0 c'). }
  destruct P as [Np E0].
  assert (Gi : good (indep fresh use env p n r) (EVar ti)).
  { split; [|split; [exact I|discriminate]]. split; [cbn; apply Nat.eqb_neq; intros ->; contradiction|]. exists (env ti). auto. }
  destruct (net_dep fresh use same I1 I2 I3 env p nw Np E0 st1 r ls hs n (EVar ti) C Ha Hi Nd Hp eq_refl Hn Hr Gi) as (out & E1 & (D & Nc & _)).
  assert (Ec : out_cols n hs = c).
  { destruct hs as [|[c0 f0] hs]; cbn in Hc; [discriminate|]. cbn. now apply last_size_cols. }
  rewrite Ec in D.
  destruct (error_dep fresh use same I1 env p nw Np E0 c r out ex D Nc) as (E & g & u & L & T & E2 & H & M); [intros ->; contradiction|exact Mx|].
  destruct (result_gradient fresh use same env p c r E g u L T Np H M) as (y & S).
  exists E, y. split; [|exact S]. unfold gd_error, prop_up, mlp_prop_up. cbn [m_nin m_layers].
  rewrite (check_input_ok n _ (compat_batch n r)). cbn [bind]. rewrite E1. cbn [bind]. exact E2.
Qed.

(** reduce_sum: the value is the sum of all elements, and the gradient of the sum is that of
    its argument, whatever the argument. *)
Lemma C37_reduce_sum_lemma :
  (forall fresh use env (a : @expr R) t, eval Rnum fresh use env a = Ok t ->
    is_fully_defined (fst t) = true -> length (snd t) = n_elems (fst t) ->
    eval Rnum fresh use env (ESum a) = Ok ([1%nat], [total (Ok t)])) /\
  (forall fresh use same env w (a : @expr R), has_leaf w a = true ->
    derive Rnum fresh use same env w (ESum a) = derive Rnum fresh use same env w a).
Proof.
  split.
  - intros fresh use env a t Et Fd Ln. cbn [eval]. rewrite Et. cbn [bind].
    assert (Np : (0 < n_elems (fst t))%nat) by now apply fd_pos.
    replace (total (Ok t)) with (fold1 Rplus 0 (snd t)).
    + apply forward_fresh; [reflexivity|reflexivity|]. cbn [map]. unfold forward1. cbn [rd nth_error bind fst snd]. apply C18_compress_all_lemma; auto.
    + cbn [total]. assert (G : forall l a, fold_left Rplus l a = a + fold_right Rplus 0 l).
      { induction l as [|x l IHl]; intros a0; cbn; [lra|]. rewrite IHl. lra. }
      destruct (snd t) as [|x l]; [reflexivity|]. cbn. apply G.
  - intros fresh use same env w a H. apply sum_info; [exact H|]. apply inherit_none_term.
Qed.

Lemma sum_list l : fold_right Rplus 0 l = sumR (fun i => nth i l 0) (length l).
Proof. induction l as [|x l IHl]; [reflexivity|]. cbn [fold_right length]. change (S (length l)) with (1 + length l)%nat. rewrite sumR_app. cbn [sumn nth Nat.add]. rewrite IHl. lra. Qed.

(** Sums of elementwise expressions: the gradient with respect to a variable of the full shape
    (the expression depends on every position of it) is, element by element, the derivative
    of the sum. *)
Lemma C37_sum_elementwise_lemma :
  forall fresh use same, (forall a b, same a b = true -> a = b) ->
  forall (s : shape) (env : nat -> tens R) (w : nat) (e : expr),
    is_fully_defined s = true -> leaves_fit s env e -> has_leaf w e = true -> fst (env w) = s -> length (snd (env w)) = n_elems s ->
    (forall i, (i < n_elems s)%nat -> regular i (fun v => at_ (env v) i) e) ->
    exists Y y, derive Rnum fresh use same env w (ESum e) = Ok Y /\ eval Rnum fresh use env Y = Ok y /\ fits s y /\
      forall k, (k < n_elems s)%nat ->
        derivable_pt_lim (fun x => sumR (fun i => elem (eval Rnum fresh use (set_elem env w k x) e) i) (n_elems s)) (at_ (env w) k) (at_ y k).
Proof.
  intros fresh use same Hs s env w e F Hl Hw Es Ln Hr.
  assert (Fw : fits s (env w)) by (split; [congruence|]; split; [congruence|now left]).
  destruct (C36_gradient_lemma fresh use same Hs s env w e F Hl Fw Hr) as (Y & y & E1 & E2 & E3 & E4).
  exists Y, y. split; [rewrite (proj2 C37_reduce_sum_lemma) by exact Hw; exact E1|]. split; [exact E2|]. split; [exact E3|]. intros k Hk.
  eapply lim_val; [|apply (lim_sum (fun i x => elem (eval Rnum fresh use (set_elem env w k x) e) i) (fun i => at_ y i * (if (i =? k)%nat then 1 else 0)))].
  - apply (sumR_delta (at_ y)). exact Hk.
  - intros i Hi. destruct (Nat.eqb_spec i k) as [->|Hik].
    + apply (lim_val _ _ (at_ y k)); [ring|]. now apply (E4 k Hk).
    + apply (lim_val _ _ 0); [ring|]. apply (lim_ext (fct_cte (elem (eval Rnum fresh use env e) i))); [|apply derivable_pt_lim_const].
      intros x. unfold fct_cte. symmetry. apply (C36_local_lemma fresh use s); auto. rewrite Ln. intros H1. rewrite H1 in *. lia.
Qed.


Lemma R01 : Reqb 0 1 = false. Proof. apply (Reqb_no 0 1); lra. Qed.
Lemma R10 : Reqb 1 0 = false. Proof. apply (Reqb_no 1 0); lra. Qed.
Lemma R20 : Reqb 2 0 = false. Proof. apply (Reqb_no 2 0); lra. Qed.
Lemma R21 : Reqb 2 1 = false. Proof. apply (Reqb_no 2 1); lra. Qed.
Lemma Rpw2 x : Rpow x 2 = x * x.
Proof. rewrite (Rpow_IZR x 2). change (powerRZ x 2) with (x ^ 2). ring. Qed.
Ltac sets H := unfold set_elem; cbn [Nat.eqb]; rewrite ?H; reflexivity.
Lemma lim_lin a b x : derivable_pt_lim (fun r => a * r + b) x a.
Proof.
  apply (lim_val _ _ (a * 1 + 0)); [ring|]. apply (lim_ext (plus_fct (mult_real_fct a id) (fct_cte b))); [reflexivity|].
  apply derivable_pt_lim_plus; [|apply derivable_pt_lim_const]. apply derivable_pt_lim_scal, derivable_pt_lim_id.
Qed.

(** A one-element variable that is broadcast: the gradient is not summed. The derivative of
    the sum of x * v is the sum of v's elements, but derive returns v itself, which has more
    elements than the variable. *)
Lemma C37_broadcast_refuted_lemma :
  forall fresh use same env x a b, node_identity same -> env 0%nat = ([1%nat], [x]) -> env 1%nat = ([2%nat], [a; b]) ->
    let e := ESum (EBin BMul (EVar 0) (EVar 1)) in
    derive Rnum fresh use same env 0 e = Ok (EVar 1) /\
    derivable_pt_lim (fun r => total (eval Rnum fresh use (set_elem env 0 0 r) e)) x (a + b).
Proof.
  intros fresh use same env x a b (I1 & _) H0 H1 e. split.
  - apply (sym_broadcast 0 1 2 Rplus Rminus Rmult Rdiv Ropp Rabs sin cos tan exp sqrt Rround ln Rpow Reqb Rltb fresh use same); auto using R01, R20, R21. intros y. apply (Reqb_yes y).
  - apply (lim_ext (fun r => (a + b) * r + 0)); [|apply lim_lin]. intros r.
    pose proof (sym_broadcast_value 0 1 2 Rplus Rminus Rmult Rdiv Ropp Rabs sin cos tan exp sqrt Rround ln Rpow Reqb Rltb fresh use (set_elem env 0 0 r) r a b) as E.
    fold Rnum in E. unfold e. rewrite E; [cbn; ring|sets H0|sets H1].
Qed.

(** reduce_max: derive returns the constant 1 whatever the values; the derivative by an
    element that is not the largest is 0. *)
Lemma C37_reduce_max_refuted_lemma :
  forall fresh use same env a b, node_identity same -> env 0%nat = ([2%nat], [a; b]) -> a < b ->
    let e := EMax (EVar 0) in
    derive Rnum fresh use same env 0 e = Ok (EConst ([1%nat], [1])) /\
    derivable_pt_lim (fun r => total (eval Rnum fresh use (set_elem env 0 0 r) e)) a 0.
Proof.
  intros fresh use same env a b I H0 Hab e. split; [reflexivity|].
  apply (lim_ext_loc (fct_cte b) _ _ _ (b - a)); [lra| |apply derivable_pt_lim_const]. intros r Hr.
  pose proof (sym_max_value 0 1 2 Rplus Rminus Rmult Rdiv Ropp Rabs sin cos tan exp sqrt Rround ln Rpow Reqb Rltb fresh use (set_elem env 0 0 r) r b) as E.
  fold Rnum in E. unfold e. rewrite E by sets H0. apply Rabs_def2 in Hr. assert (L : Rltb r b = true) by (apply Rltb_iff; lra). rewrite L. cbn. unfold fct_cte. lra.
Qed.

(** A bias whose sum is differentiated directly (without an elementwise function in between,
    as in a last layer without activation): derive returns one element 1, the derivative by
    each element is the number of rows. *)
Lemma C37_bias_sum_refuted_lemma :
  forall fresh use same env a b x y u v, node_identity same -> env 0%nat = ([2%nat], [a; b]) -> env 1%nat = ([2%nat; 2%nat], [x; y; u; v]) ->
    let e := ESum (EAxB 1 (EVar 1) (EVar 0)) in
    (exists Y, derive Rnum fresh use same env 0 e = Ok Y /\ eval Rnum fresh use env Y = Ok ([1%nat], [1])) /\
    derivable_pt_lim (fun r => total (eval Rnum fresh use (set_elem env 0 0 r) e)) a 2 /\
    derivable_pt_lim (fun r => total (eval Rnum fresh use (set_elem env 0 1 r) e)) b 2.
Proof.
  intros fresh use same env a b x y u v (I1 & _) H0 H1 e. split; [|split].
  - apply (sym_bias 0 1 2 Rplus Rminus Rmult Rdiv Ropp Rabs sin cos tan exp sqrt Rround ln Rpow Reqb Rltb fresh use same); auto using R01. intros y'. apply (Reqb_yes y').
  - apply (lim_ext (fun r => 2 * r + (x + u + y + v + 2 * b))); [|apply lim_lin]. intros r.
    pose proof (sym_bias_value 0 1 2 Rplus Rminus Rmult Rdiv Ropp Rabs sin cos tan exp sqrt Rround ln Rpow Reqb Rltb fresh use (set_elem env 0 0 r) r b x y u v) as E. fold Rnum in E.
    assert (E' := E ltac:(sets H0) ltac:(sets H1)).
    unfold e. rewrite (proj1 C37_reduce_sum_lemma _ _ _ _ _ E' eq_refl eq_refl). cbn. ring.
  - apply (lim_ext (fun r => 2 * r + (x + u + y + v + 2 * a))); [|apply lim_lin]. intros r.
    pose proof (sym_bias_value 0 1 2 Rplus Rminus Rmult Rdiv Ropp Rabs sin cos tan exp sqrt Rround ln Rpow Reqb Rltb fresh use (set_elem env 0 1 r) a r x y u v) as E. fold Rnum in E.
    assert (E' := E ltac:(sets H0) ltac:(sets H1)).
    unfold e. rewrite (proj1 C37_reduce_sum_lemma _ _ _ _ _ E' eq_refl eq_refl). cbn. ring.
Qed.

(** exp(x) / reduce_sum(exp(x)), the softmax function: its elements always sum to 1, so the
    derivative of the sum is 0, but derive returns positive elements: it treats the divisor
    as if each position had its own. *)
Lemma C37_softmax_refuted_lemma :
  forall fresh use same env x y, node_identity same -> env 0%nat = ([2%nat], [x; y]) ->
    let e := ESum (EBin BDiv (EUn UExp (EVar 0)) (ESum (EUn UExp (EVar 0)))) in
    (exists Y p q, derive Rnum fresh use same env 0 e = Ok Y /\ eval Rnum fresh use env Y = Ok ([2%nat], [p; q]) /\ 0 < p /\ 0 < q) /\
    derivable_pt_lim (fun r => total (eval Rnum fresh use (set_elem env 0 0 r) e)) x 0 /\
    derivable_pt_lim (fun r => total (eval Rnum fresh use (set_elem env 0 1 r) e)) y 0.
Proof.
  intros fresh use same env x y (I1 & _) H0 e. pose proof (exp_pos x) as Px. pose proof (exp_pos y) as Py.
  assert (V : forall env' x y, env' 0%nat = ([2%nat], [x; y]) -> total (eval Rnum fresh use env' e) = 1).
  { intros env' x' y' H'. pose proof (sym_softmax_value 0 1 2 Rplus Rminus Rmult Rdiv Ropp Rabs sin cos tan exp sqrt Rround ln Rpow Reqb Rltb fresh use env' x' y' H') as E. fold Rnum in E. cbn zeta in E.
    unfold e. rewrite (proj1 C37_reduce_sum_lemma _ _ _ _ _ E eq_refl eq_refl). cbn. pose proof (exp_pos x'). pose proof (exp_pos y'). field. lra. }
  split; [|split].
  - assert (G := sym_softmax 0 1 2 Rplus Rminus Rmult Rdiv Ropp Rabs sin cos tan exp sqrt Rround ln Rpow Reqb Rltb fresh use same I1 R01 (fun x => Reqb_yes x) R20 R21 Rpw2 env x y H0).
    destruct G as (Y & E1 & E2). exists Y. cbn [n_exp] in E2. eexists _, _. split; [exact E1|]. split; [exact E2|].
    assert (P : forall s t, 0 < s -> 0 < t -> 0 < (s * (s + t) - s * s) / ((s + t) * (s + t))).
    { intros s t Hs Ht. apply Rdiv_lt_0_compat; nra. }
    split; [now apply P|]. rewrite (Rplus_comm (exp x)). now apply P.
  - apply (lim_ext (fct_cte 1)); [|apply derivable_pt_lim_const]. intros r. unfold fct_cte. symmetry. apply (V _ r y). sets H0.
  - apply (lim_ext (fct_cte 1)); [|apply derivable_pt_lim_const]. intros r. unfold fct_cte. symmetry. apply (V _ x r). sets H0.
Qed.

(** A product used both directly and as a factor of another product (z + matmul(z, v)): only
    the first use's list of pending products is kept, so the second one is differentiated as
    if it were the first: derive returns 2 a where the derivative is a (1 + v). *)
Lemma C37_skip_refuted_lemma :
  forall fresh use same env x a v, node_identity same ->
    env 0%nat = ([1; 1]%nat, [x]) -> env 1%nat = ([1; 1]%nat, [a]) -> env 2%nat = ([1; 1]%nat, [v]) ->
    let z := mk_mat (EVar 0) (EVar 1) false false in
    let e := ESum (EBin BAdd z (mk_mat z (EVar 2) false false)) in
    (exists Y, derive Rnum fresh use same env 0 e = Ok Y /\ eval Rnum fresh use env Y = Ok ([1; 1]%nat, [2 * a])) /\
    derivable_pt_lim (fun r => total (eval Rnum fresh use (set_elem env 0 0 r) e)) x (a * (1 + v)).
Proof.
  intros fresh use same env x a v (I1 & I2 & _) H0 H1 H2 z e. split.
  - assert (G := sym_skip 0 1 2 Rplus Rminus Rmult Rdiv Ropp Rabs sin cos tan exp sqrt Rround ln Rpow Reqb Rltb fresh use same I1 I2 R01 (fun x => Reqb_yes x) R20 R21 env x a v H0 H1 H2).
    destruct G as (Y & E1 & E2). exists Y. split; [exact E1|]. fold Rnum in E2. rewrite E2. do 2 f_equal. f_equal. ring.
  - apply (lim_ext (fun r => (a * (1 + v)) * r + 0)); [|apply lim_lin]. intros r.
    pose proof (sym_skip_value 0 1 2 Rplus Rminus Rmult Rdiv Ropp Rabs sin cos tan exp sqrt Rround ln Rpow Reqb Rltb fresh use (set_elem env 0 0 r) r a v) as E. fold Rnum in E.
    assert (E' := E ltac:(sets H0) ltac:(sets H1) ltac:(sets H2)).
    unfold e, z, mk_mat. rewrite (proj1 C37_reduce_sum_lemma _ _ _ _ _ E' eq_refl eq_refl). cbn. ring.
Qed.

(** A bias that is itself a product (add_axial_b(x, matmul(p, q))): the pending product is
    applied before the sum over the rows, so that its arguments do not fit and derive throws,
    although the sum has the derivative p e^(x + p q) + p e^(y + p q). *)
Lemma C37_bias_product_refuted_lemma :
  forall fresh use same env q x y p, node_identity same ->
    env 0%nat = ([1; 1]%nat, [q]) -> env 1%nat = ([1; 2]%nat, [x; y]) -> env 2%nat = ([1; 1]%nat, [p]) ->
    let e := ESum (EUn UExp (EAxB 1 (EVar 1) (mk_mat (EVar 2) (EVar 0) false false))) in
    derive Rnum fresh use same env 0 e = Throw /\
    derivable_pt_lim (fun r => total (eval Rnum fresh use (set_elem env 0 0 r) e)) q (p * exp (x + p * q) + p * exp (y + p * q)).
Proof.
  intros fresh use same env q x y p (I1 & I2 & _) H0 H1 H2 e. split.
  - exact (sym_prodbias 0 1 2 Rplus Rminus Rmult Rdiv Ropp Rabs sin cos tan exp sqrt Rround ln Rpow Reqb Rltb fresh use same I1 R01 (fun x => Reqb_yes x) R20 R21 env q x y p H0 H1 H2).
  - assert (D : forall c, derivable_pt_lim (fun r => exp (p * r + c)) q (p * exp (c + p * q))).
    { intros c. pose proof (derivable_pt_lim_comp (fun r => p * r + c) exp q p (exp (p * q + c)) (lim_lin p c q) (derivable_pt_lim_exp (p * q + c))) as D.
      unfold comp in D. replace (p * exp (c + p * q)) with (exp (p * q + c) * p); [exact D|]. rewrite (Rplus_comm c). ring. }
    apply (lim_ext (fun r => exp (p * r + x) + exp (p * r + y))); [|exact (derivable_pt_lim_plus _ _ _ _ _ (D x) (D y))]. intros r.
    pose proof (sym_prodbias_value 0 1 2 Rplus Rminus Rmult Rdiv Ropp Rabs sin cos tan exp sqrt Rround ln Rpow Reqb Rltb fresh use (set_elem env 0 0 r) r x y p) as E. fold Rnum in E. cbn zeta in E.
    assert (E' := E ltac:(sets H0) ltac:(sets H1) ltac:(sets H2)).
    unfold e, mk_mat. rewrite (proj1 C37_reduce_sum_lemma _ _ _ _ _ E' eq_refl eq_refl). cbn.
    replace (x + (0 + p * r)) with (p * r + x) by ring. replace (y + (0 + p * r)) with (p * r + y) by ring. ring.
Qed.

(** A factor transposed with the transpose function instead of the flag: the gradient has the
    transposed order. For matmul(x, transpose(w)) with a row x = (x, y), derive returns
    x, x, y, y for the elements of w, the derivatives are x, y, x, y. *)
Lemma C37_explicit_transpose_refuted_lemma :
  forall fresh use same env a b c d x y, node_identity same ->
    env 0%nat = ([2; 2]%nat, [a; b; c; d]) -> env 1%nat = ([2; 1]%nat, [x; y]) ->
    let e := ESum (mk_mat (EVar 1) (mk_tr (EVar 0)) false false) in
    (exists Y, derive Rnum fresh use same env 0 e = Ok Y /\ eval Rnum fresh use env Y = Ok ([2; 2]%nat, [x; x; y; y])) /\
    derivable_pt_lim (fun r => total (eval Rnum fresh use (set_elem env 0 1 r) e)) b y /\
    derivable_pt_lim (fun r => total (eval Rnum fresh use (set_elem env 0 2 r) e)) c x.
Proof.
  intros fresh use same env a b c d x y (I1 & I2 & _) H0 H1 e. split; [|split].
  - assert (G := sym_expl 0 1 2 Rplus Rminus Rmult Rdiv Ropp Rabs sin cos tan exp sqrt Rround ln Rpow Reqb Rltb fresh use same I1 (fun x => Reqb_yes x) R20 R21 env a b c d x y H0 H1).
    destruct G as (Y & E1 & E2). exists Y. split; [exact E1|]. fold Rnum in E2. rewrite E2. replace ((0 + x * 1) * 1) with x by ring. replace ((0 + y * 1) * 1) with y by ring. reflexivity.
  - apply (lim_ext (fun r => y * r + (x * a + x * c + y * d))); [|apply lim_lin]. intros r.
    pose proof (sym_expl_value 0 1 2 Rplus Rminus Rmult Rdiv Ropp Rabs sin cos tan exp sqrt Rround ln Rpow Reqb Rltb fresh use (set_elem env 0 1 r) a r c d x y) as E. fold Rnum in E.
    assert (E' := E ltac:(sets H0) ltac:(sets H1)).
    unfold e, mk_mat, mk_tr. rewrite (proj1 C37_reduce_sum_lemma _ _ _ _ _ E' eq_refl eq_refl). cbn. ring.
  - apply (lim_ext (fun r => x * r + (x * a + y * b + y * d))); [|apply lim_lin]. intros r.
    pose proof (sym_expl_value 0 1 2 Rplus Rminus Rmult Rdiv Ropp Rabs sin cos tan exp sqrt Rround ln Rpow Reqb Rltb fresh use (set_elem env 0 2 r) a b r d x y) as E. fold Rnum in E.
    assert (E' := E ltac:(sets H0) ltac:(sets H1)).
    unfold e, mk_mat, mk_tr. rewrite (proj1 C37_reduce_sum_lemma _ _ _ _ _ E' eq_refl eq_refl). cbn. ring.
Qed.

(** pointer comparison where every node exists once: equality of trees *)
Definition same_tree (a b : @expr R) : bool := if excluded_middle_informative (a = b) then true else false.
Lemma same_tree_identity : node_identity same_tree.
Proof.
  assert (R : forall a, same_tree a a = true) by (intros a; unfold same_tree; destruct (excluded_middle_informative _); congruence).
  split; [|split; intros; apply R]. intros a b. unfold same_tree. destruct (excluded_middle_informative _); congruence.
Qed.

(** the hypotheses hold for a net of two inputs with layers of 3 and 2 outputs (sigmoid and
    tanh), a batch of two rows, and each of its parameters *)
Lemma C37_nonvacuous_lemma :
  let hs := [(3%nat, mk_sigmoid Rnum); (2%nat, mk_tanh Rnum same_tree)] in
  let '(m, st) := mlp_new Rnum INR 2 hs "net"%string [] in
  let env := fun v => match v with
    | 0%nat => ([3; 2]%nat, [1; 2; 3; 4; 5; 6]) | 1%nat => ([3%nat], [10; 20; 30])
    | 2%nat => ([2; 3]%nat, [1; -1; 2; 0; 0; 1]) | 3%nat => ([2%nat], [5; 7]) | _ => ([2; 2]%nat, [1; 2; 3; 4]) end in
  node_identity same_tree /\ Forall (fun h => (0 < fst h)%nat /\ smooth_act same_tree (snd h)) hs /\
  m_nout m = Some 2%nat /\ mlp_variables m = [0; 1; 2; 3]%nat /\ (forall q, In q (mlp_variables m) -> initialized env st q) /\
  matrix 2 2 (env 4%nat) /\ matrix 2 2 (env 5%nat) /\ ~ In 4%nat (mlp_variables m) /\ ~ In 5%nat (mlp_variables m) /\
  forall p, In p (mlp_variables m) -> exists E y, gd_error Rnum same_tree (CMlp m) 4 5 [2; 2]%nat = Ok E /\
    sum_gradient (fun _ => 77) true same_tree env p E y.
Proof.
  cbn zeta. destruct (mlp_new Rnum INR 2 [(3%nat, mk_sigmoid Rnum); (2%nat, mk_tanh Rnum same_tree)] "net" []) as [m st] eqn:E. pose proof E as E0. unfold mlp_new in E. cbn in E. injection E as <- <-.
  match goal with |- context [initialized ?e _ _] => set (env := e) end.
  assert (F : Forall (fun h : nat * @act R => (0 < fst h)%nat /\ smooth_act same_tree (snd h)) [(3%nat, mk_sigmoid Rnum); (2%nat, mk_tanh Rnum same_tree)]) by (repeat constructor).
  split; [exact same_tree_identity|]. split; [exact F|]. split; [reflexivity|]. split; [reflexivity|].
  assert (I : forall q, In q [0; 1; 2; 3]%nat -> exists v : @var R, deref (snd (mlp_new Rnum INR 2 [(3%nat, mk_sigmoid Rnum); (2%nat, mk_tanh Rnum same_tree)] "net" [])) q = Ok v /\ fst (env q) = v_shape v /\ length (snd (env q)) = n_elems (v_shape v)).
  { cbn [In]. intros q [<-|[<-|[<-|[<-|[]]]]]; eexists; (split; [cbn; reflexivity|]); split; reflexivity. }
  rewrite E0 in I. cbn [snd] in I. split; [exact I|].
  assert (M : forall v, (3 < v)%nat -> matrix 2 2 (env v)) by (intros [|[|[|[|v]]]] Hv; try lia; repeat split; auto).
  split; [apply (M 4%nat); lia|]. split; [apply (M 5%nat); lia|]. split; [cbn; lia|]. split; [cbn; lia|].
  intros p Hp. eapply (C37_training_gradient_lemma (fun _ => 77) true same_tree INR env 2 2 2 _ "net"%string [] _ _ 4 5 p same_tree_identity).
  1, 2: lia. 1: exact F. 1: exact E0. 1: reflexivity. 1: exact I. 1: apply (M 4%nat); lia. 1: reflexivity. 1: apply (M 5%nat); lia. 1, 2: cbn; lia. exact Hp.
Qed.
