(** Gradients of the training error of networks. *)
From Coq Require Import String Reals Lra Lia.
From Verif Require Import Common ShapeModel ShapeProofs ShapeSpec TransformSpec TransformModel TransformProofs TransformLaws MatmulSpec ElemModel ElemProofs NumSpec RealNum ElemLaws GradModel GradSpec GradProofs MatrixSpec MatrixProofs MlpModel MlpProofs MlpLaws CopyLaws NetSpec NetProofs.
Local Open Scope list_scope.
Local Open Scope R_scope.

(** not a constant, not a transpose, not the negation of one of these or of a negation *)
Definition nc (e : @expr R) : Prop :=
  match e with
  | EConst _ | ETr _ => False
  | EUn UNeg (EConst _) | EUn UNeg (ETr _) | EUn UNeg (EUn UNeg _) => False
  | _ => True
  end.
Lemma nc_nonconst e : nc e -> nonconst e.
Proof. destruct e; cbn; auto. Qed.
Lemma nc_not_tr e : nc e -> not_tr e.
Proof. destruct e; cbn; auto. Qed.
Lemma nc_un op a : nc a -> op <> UNeg -> nc (EUn op a).
Proof. destruct op; cbn; auto. congruence. Qed.
Lemma nc_neg (a : @expr R) : nc a -> (forall b, a <> EUn UNeg b) -> nc (EUn UNeg a).
Proof. intros H1 H2. destruct a as [| |op a| | | | | | | |]; cbn in *; auto. destruct op; cbn; auto. exfalso. now apply (H2 a). Qed.
Lemma nc_neg_arg (a : @expr R) : nc (EUn UNeg a) -> nc a /\ forall b, a <> EUn UNeg b.
Proof. destruct a as [| |op a| | | | | | | |]; cbn; try (intros H; split; [auto|discriminate]); try contradiction. destruct op; cbn; intros H; try contradiction; split; auto; discriminate. Qed.
Lemma neg_cases (a : @expr R) : (exists b, a = EUn UNeg b) \/ (forall b, a <> EUn UNeg b).
Proof. destruct a as [| |op a| | | | | | | |]; try (right; discriminate). destruct op; try (right; discriminate). left. eauto. Qed.
Lemma mk_neg_nc (a : @expr R) : nc a -> (forall b, a <> EUn UNeg b) -> mk_neg Rnum a = EUn UNeg a.
Proof. intros H H2. destruct a as [| |op a| | | | | | | |]; cbn in *; auto; try contradiction. destruct op; cbn; auto. exfalso. now apply (H2 a). Qed.
Lemma mk_neg_not (a b : @expr R) : nc a -> mk_neg Rnum a = EUn UNeg b -> a = b.
Proof.
  intros H E. destruct (neg_cases a) as [[c ->]|Hn]; [|rewrite mk_neg_nc in E by auto; now injection E].
  cbn in E. subst c. now destruct (proj2 (nc_neg_arg _ H) b).
Qed.

Lemma Reqb_no x y : x <> y -> n_eqb Rnum x y = false.
Proof. intros H. apply not_true_iff_false. intros E. apply Reqb_iff in E. contradiction. Qed.
Lemma Reqb_yes x : n_eqb Rnum x x = true.
Proof. now apply Reqb_iff. Qed.
Lemma scalar_not_zero v : v <> 0 -> const_is Rnum (const_scalar v) (n_zero Rnum) = false.
Proof. intros H. unfold const_is. cbn [snd const_scalar]. apply Reqb_no. cbn. auto. Qed.

(** ---- builders on nodes that are not constants ---- *)
Lemma fold_nc op a : nc a -> fold_node Rnum op a = EUn op a.
Proof. destruct a; cbn; auto. contradiction. Qed.
Lemma unary_nc op a : nc a -> unit_op op ->
  mk_unary Rnum op a = Ok a \/ mk_unary Rnum op a = Ok (mk_neg Rnum a) \/ (op <> UNeg /\ mk_unary Rnum op a = Ok (EUn op a)).
Proof.
  intros Ha Ho. pose proof (fold_nc op a Ha) as F. destruct op as [| | | | | | | | | | | |q|lo hi|q q'|q q'|c|c|c|c|c|c|c|c]; cbn in Ho; try contradiction; cbn [mk_unary];
    try (right; right; split; [discriminate|]; rewrite F; reflexivity).
  - right. now left.
  - destruct (n_eqb Rnum c (n_zero Rnum)); [now left|]. right; right. split; [discriminate|]. destruct a; cbn in Ha; try contradiction; reflexivity.
  - destruct a; cbn in Ha; try contradiction; (destruct (n_eqb Rnum c (n_zero Rnum)); [now left|right; right; split; [discriminate|reflexivity]]).
  - destruct (n_eqb Rnum c (n_zero Rnum)); [right; now left|]. right; right. split; [discriminate|]. destruct a; cbn in Ha; try contradiction; reflexivity.
  - destruct a; cbn in Ha; try contradiction; (destruct (n_eqb Rnum c (n_zero Rnum)); [now left|right; right; split; [discriminate|reflexivity]]).
  - assert (Z : n_eqb Rnum (n_zero Rnum) c = false) by (apply Reqb_no; cbn; auto).
    destruct a; cbn in Ha; try contradiction; rewrite Z; (destruct (n_eqb Rnum (n_one Rnum) c); [now left|]; destruct (n_eqb Rnum (n_neg Rnum (n_one Rnum)) c); [right; now left|right; right; split; [discriminate|reflexivity]]).
  - assert (Z : n_eqb Rnum (n_zero Rnum) c = false) by (apply Reqb_no; cbn; auto).
    destruct a; cbn in Ha; try contradiction; rewrite Z; (destruct (n_eqb Rnum (n_one Rnum) c); [now left|]; destruct (n_eqb Rnum (n_neg Rnum (n_one Rnum)) c); [right; now left|right; right; split; [discriminate|reflexivity]]).
  - assert (Z : n_eqb Rnum c (n_zero Rnum) = false) by (apply Reqb_no; cbn; auto).
    destruct a; cbn in Ha; try contradiction; rewrite Z; (destruct (n_eqb Rnum c (n_one Rnum)); [now left|right; right; split; [discriminate|reflexivity]]).
Qed.

Section Act.
Context (same : @expr R -> @expr R -> bool) (same_ok : forall a b, same a b = true -> a = b).
(** what activation functions make of a node *)
Definition sig_of (a : @expr R) : @expr R := EUn (UDivL 1) (EUn (UAddL 1) (EUn UExp a)).
Definition tanh_of (a : @expr R) : @expr R := let x := EUn UExp (EUn (UMulL 2) a) in EBin BDiv (EUn (USubR 1) x) (EUn (UAddR 1) x).

Lemma mk_sigmoid_nc a : nc a -> mk_sigmoid Rnum a = Ok (sig_of (mk_neg Rnum a)).
Proof.
  intros Ha. unfold mk_sigmoid, sig_of. cbn [mk_unary bind]. assert (Hn : nc (mk_neg Rnum a)).
  { destruct (neg_cases a) as [[b ->]|Hn]; [cbn; now apply nc_neg_arg|rewrite mk_neg_nc by auto; now apply nc_neg]. }
  rewrite (fold_nc UExp _ Hn). cbn [n_one Rnum bind]. assert (Z : n_eqb Rnum 1 (n_zero Rnum) = false) by (apply Reqb_no; cbn; lra).
  rewrite Z. reflexivity.
Qed.
Lemma mk_tanh_nc a : nc a -> mk_tanh Rnum same a = Ok (tanh_of a).
Proof.
  intros Ha. unfold mk_tanh, tanh_of.
  assert (E1 : mk_unary Rnum (UMulL (n_two Rnum)) a = Ok (EUn (UMulL 2) a)).
  { assert (Z : n_eqb Rnum (n_zero Rnum) 2 = false) by (apply Reqb_no; cbn; lra). assert (Z1 : n_eqb Rnum (n_one Rnum) 2 = false) by (apply Reqb_no; cbn; lra).
    assert (Z2 : n_eqb Rnum (n_neg Rnum (n_one Rnum)) 2 = false) by (apply Reqb_no; cbn; lra).
    cbn [mk_unary n_two Rnum]. destruct a; cbn in Ha; try contradiction; rewrite Z, Z1, Z2; reflexivity. }
  rewrite E1. cbn [bind mk_unary fold_node n_one Rnum]. assert (Z : n_eqb Rnum 1 (n_zero Rnum) = false) by (apply Reqb_no; cbn; lra). rewrite Z. cbn [bind mk_binary].
  destruct (same _ _) eqn:S; [apply same_ok in S; discriminate|]. reflexivity.
Qed.

(** a property of nodes that activation functions keep *)
Record closed (P : @expr R -> Prop) : Prop := mkClosed {
  c_un : forall op a, P a -> nc a -> unit_op op -> P (EUn op a);
  c_sig : forall a, P a -> nc a -> P (sig_of a);
  c_tanh : forall a, P a -> nc a -> P (tanh_of a) }.
Definition good (P : @expr R -> Prop) (e : @expr R) : Prop := P e /\ nc e /\ forall a, e = EUn UNeg a -> P a.

Lemma good_neg P e : closed P -> good P e -> good P (mk_neg Rnum e).
Proof.
  intros C (H1 & H2 & H3). destruct (neg_cases e) as [[b ->]|Hn].
  - cbn [mk_neg]. destruct (nc_neg_arg _ H2) as [N1 N2]. split; [now apply H3|]. split; [exact N1|]. intros a Ea. now destruct (N2 a).
  - rewrite mk_neg_nc by auto. split; [apply (c_un P C UNeg); auto; exact I|]. split; [now apply nc_neg|]. intros a [= <-]. exact H1.
Qed.
Lemma act_ok P f e : closed P -> smooth_act same f -> good P e -> exists e', f e = Ok e' /\ good P e'.
Proof.
  intros C H. revert e. induction H as [| | |op Ho|f g Hf IHf Hg IHg]; intros e G.
  - exists e. auto.
  - rewrite mk_sigmoid_nc by apply G. eexists. split; [reflexivity|]. destruct (good_neg P e C G) as (G1 & G2 & _). split; [now apply (c_sig P C)|]. split; [exact I|discriminate].
  - rewrite mk_tanh_nc by apply G. eexists. split; [reflexivity|]. destruct G as (G1 & G2 & _). split; [now apply (c_tanh P C)|]. split; [exact I|discriminate].
  - destruct (unary_nc op e) as [E|[E|[Hn E]]]; [apply G|exact Ho| | |]; rewrite E.
    + exists e. auto.
    + eexists. split; [reflexivity|]. now apply good_neg.
    + eexists. split; [reflexivity|]. destruct G as (G1 & G2 & G3). split; [now apply (c_un P C)|]. split; [now apply nc_un|]. intros a [= -> _]. congruence.
  - destruct (IHf e G) as (e1 & E1 & G1). rewrite E1. cbn [bind]. now apply IHg.
Qed.
End Act.

Section Net.
Context (fresh : nat -> R) (use : bool) (same : @expr R -> @expr R -> bool).
Context (same_ok : forall a b, same a b = true -> a = b).
Context (same_mat : forall tA tB a b, same (EMat tA tB a b) (EMat tA tB a b) = true).
Context (same_axb : forall ax a b, same (EAxB ax a b) (EAxB ax a b) = true).
Context (env : nat -> tens R) (w nw : nat) (nw_pos : (0 < nw)%nat).
Context (env0 : forall k v, (k < nw)%nat -> set_elem env w k (at_ (env w) k) v = env v).
Notation ev := (eval Rnum fresh use env).
Notation val := (nval fresh use env).
Notation envr := (set_elem env w).
Notation mat c r := (ismat fresh use env c r).
Notation fit c r := (gfit fresh use [c; r] env).
Notation nfo := (info Rnum fresh use same env w).
Notation Inv := (inv fresh use same env w nw).
Notation zero_node := (EConst (const_scalar 0)).

(** gradients that are not folded away *)
Definition full (c r : nat) (g : @expr R) : Prop := nc g /\ mat c r g /\ forall b, g = EUn UNeg b -> mat c r b.
Definition gd (c r : nat) (g : @expr R) : Prop := fit c r g /\ (full c r g \/ exists v, v <> 0 /\ g = EConst (const_scalar v)).
Lemma full_un c r op a : full c r a -> op <> UNeg -> full c r (EUn op a).
Proof. intros (H1 & H2 & _) Ho. split; [now apply nc_un|]. split; [now apply un_mat|]. intros b [= ? ?]. congruence. Qed.
Lemma full_bin c r op a b : mat c r (EBin op a b) -> full c r (EBin op a b).
Proof. intros M. split; [exact I|]. split; [exact M|discriminate]. Qed.
Lemma gd_nz c r g : gd c r g -> is_zero_const Rnum g = false.
Proof. intros (_ & [(H & _)|(v & Hv & ->)]); [destruct g; cbn in *; auto; contradiction|]. cbn [is_zero_const]. now apply scalar_not_zero. Qed.
Lemma gd_scalar c r v : v <> 0 -> gd c r (EConst (const_scalar v)).
Proof. intros H. split; [apply gfit_const_intro, fits_scalar|]. right. eauto. Qed.

Lemma full_neg c r g : full c r g -> full c r (mk_neg Rnum g).
Proof.
  intros (H1 & H2 & H3). destruct (neg_cases g) as [[b ->]|Hn].
  - cbn [mk_neg]. destruct (nc_neg_arg _ H1) as [N1 N2]. split; [exact N1|]. split; [now apply H3|]. intros b' Eb. now destruct (N2 b').
  - rewrite mk_neg_nc by auto. split; [now apply nc_neg|]. split; [now apply un_mat|]. intros b [= <-]. exact H2.
Qed.
Lemma fit_neg c r g : nc g -> fit c r g -> fit c r (mk_neg Rnum g).
Proof. intros H F. destruct (neg_cases g) as [[b ->]|Hn]; [exact F|]. rewrite mk_neg_nc by auto. exact F. Qed.
Lemma gd_neg c r g : gd c r g -> gd c r (mk_neg Rnum g).
Proof.
  intros (F & [H|(v & Hv & ->)]).
  - split; [apply fit_neg; auto; apply H|]. left. now apply full_neg.
  - cbn [mk_neg fold_node const_scalar fst snd map const_lambda]. cbn. apply (gd_scalar c r (- v)). lra.
Qed.
Lemma gd_unit_mul c r op g : full c r g -> fit c r g -> unit_op op -> exists g', mk_unary Rnum op g = Ok g' /\ full c r g' /\ fit c r g'.
Proof.
  intros H F Ho. destruct (unary_nc op g (proj1 H) Ho) as [E|[E|[Hn E]]]; rewrite E; eexists; (split; [reflexivity|]).
  - auto.
  - split; [now apply full_neg|apply fit_neg; auto; apply H].
  - split; [now apply full_un|exact F].
Qed.
Lemma gd_mul c r x g : x <> 0 -> gd c r g -> exists g', mk_unary Rnum (UMulL x) g = Ok g' /\ gd c r g'.
Proof.
  intros Hx G. pose proof G as (F & [H|(v & Hv & ->)]).
  - destruct (gd_unit_mul c r (UMulL x) g H F Hx) as (g' & E & H' & F'). exists g'. split; [exact E|]. split; auto.
  - cbn [mk_unary]. rewrite scalar_not_zero by exact Hv. cbn [orb]. rewrite (Reqb_no (n_zero Rnum) x) by (cbn; auto).
    destruct (const_is Rnum (const_scalar v) (n_one Rnum)); eexists; (split; [reflexivity|]).
    + now apply gd_scalar.
    + cbn [fold_node const_scalar fst snd map const_lambda]. cbn. apply (gd_scalar c r (x * v)). now apply Rmult_integral_contrapositive_currified.
Qed.
Lemma gd_divr c r x g : x <> 0 -> gd c r g -> exists g', mk_unary Rnum (UDivR x) g = Ok g' /\ gd c r g'.
Proof.
  intros Hx G. pose proof G as (F & [H|(v & Hv & ->)]).
  - destruct (gd_unit_mul c r (UDivR x) g H F Hx) as (g' & E & H' & F'). exists g'. split; [exact E|]. split; auto.
  - cbn [mk_unary]. rewrite scalar_not_zero by exact Hv. eexists; split; [reflexivity|].
    cbn [fold_node const_scalar fst snd map const_lambda]. cbn. apply (gd_scalar c r (v / x)). apply Rmult_integral_contrapositive_currified; [exact Hv|now apply Rinv_neq_0_compat].
Qed.

(** times a node: the result is not constant *)
Lemma times_nc g x : nc g -> nc x -> (g = x /\ mk_binary Rnum same BMul g x = Ok (EUn (UPow 2) g)) \/ mk_binary Rnum same BMul g x = Ok (EBin BMul g x).
Proof.
  intros Hg Hx. cbn [mk_binary]. destruct (same g x) eqn:S.
  - left. split; [now apply same_ok|]. cbn [mk_unary]. rewrite (Reqb_no (n_two Rnum)), (Reqb_no (n_two Rnum)) by (cbn; lra). now rewrite (fold_nc _ g Hg).
  - right. now rewrite (cview_nonconst g (nc_nonconst _ Hg)), (cview_nonconst x (nc_nonconst _ Hx)).
Qed.
Lemma gd_times c r g x : gd c r g -> full c r x -> fit c r x ->
  exists g', mk_binary Rnum same BMul g x = Ok g' /\ full c r g' /\ fit c r g'.
Proof.
  intros G Hx Fx. pose proof G as (F & [H|(v & Hv & ->)]).
  - destruct (times_nc g x (proj1 H) (proj1 Hx)) as [[<- E]|E]; rewrite E; eexists; (split; [reflexivity|]).
    + split; [apply full_un; [exact H|discriminate]|exact F].
    + split; [|split; assumption]. apply full_bin. destruct (gfit_ev _ _ _ _ x Fx) as (t & Et & Ft). apply (bin_mat_l _ _ _ _ _ _ _ _ t); auto. exact (proj1 (proj2 H)).
  - cbn [mk_binary]. destruct (same _ x) eqn:S; [apply same_ok in S; subst x; destruct Hx as [[] _]|].
    cbn [cview_of]. rewrite scalar_not_zero by exact Hv. replace (one_elem (const_scalar v)) with true by reflexivity. cbn [const_scalar snd].
    now apply gd_unit_mul.
Qed.
Lemma gd_full c r g : full c r g -> fit c r g -> gd c r g.
Proof. intros. split; auto. Qed.
(** divided by a node *)
Lemma gd_over c r g x : gd c r g -> full c r x -> fit c r x -> exists g', mk_binary Rnum same BDiv g x = Ok g' /\ gd c r g'.
Proof.
  intros G Hx Fx. pose proof G as (F & K). cbn [mk_binary]. destruct (same g x) eqn:S.
  { eexists. split; [reflexivity|]. apply gd_scalar. cbn. lra. }
  destruct K as [H|(v & Hv & ->)].
  - rewrite (cview_nonconst g (nc_nonconst _ (proj1 H))), (cview_nonconst x (nc_nonconst _ (proj1 Hx))). eexists. split; [reflexivity|].
    split; [split; assumption|]. left. apply full_bin. destruct (gfit_ev _ _ _ _ x Fx) as (t & Et & Ft). apply (bin_mat_l _ _ _ _ _ _ _ _ t); auto. exact (proj1 (proj2 H)).
  - cbn [cview_of]. rewrite scalar_not_zero by exact Hv. replace (one_elem (const_scalar v)) with true by reflexivity. cbn [const_scalar snd].
    cbn [mk_unary]. assert (Z : n_eqb Rnum v (n_zero Rnum) = false) by (apply Reqb_no; exact Hv). exists (EUn (UDivL v) x).
    split; [pose proof (proj1 Hx) as Hn; destruct x; cbn in Hn; try contradiction; rewrite Z; reflexivity|]. apply gd_full; [apply full_un; [exact Hx|discriminate]|exact Fx].
Qed.

Lemma gd_back_unary c r op a g : nc a -> mat c r a -> fit c r a -> gd c r g -> unit_op op ->
  exists g', back_unary Rnum same op a g = Ok g' /\ gd c r g'.
Proof.
  intros Ha Ma Fa G Ho.
  assert (X : forall o g1, o <> UNeg -> gd c r g1 -> exists g', mk_binary Rnum same BMul g1 (EUn o a) = Ok g' /\ gd c r g').
  { intros o g1 Hn G1. destruct (gd_times c r g1 (EUn o a) G1) as (g' & E & N1 & N2).
    - split; [now apply nc_un|]. split; [now apply un_mat|]. intros b [= ? ?]. congruence.
    - exact Fa.
    - exists g'. split; [exact E|]. now apply gd_full. }
  destruct op; cbn in Ho; try contradiction; cbn [back_unary].
  - eexists. split; [reflexivity|]. now apply gd_neg.
  - cbn [mk_unary bind]. rewrite (fold_nc _ a Ha). apply X; [discriminate|exact G].
  - cbn [mk_unary bind]. rewrite (fold_nc _ a Ha). apply X; [discriminate|now apply gd_neg].
  - cbn [mk_unary bind]. rewrite (fold_nc _ a Ha). apply X; [discriminate|exact G].
  - eauto.
  - eauto.
  - eexists. split; [reflexivity|]. now apply gd_neg.
  - eauto.
  - now apply gd_mul.
  - now apply gd_mul.
  - now apply gd_divr.
Qed.

(** ---- nodes that contain the variable ---- *)
Definition dep (c r : nat) (e : @expr R) : Prop := exists g u L T, Inv c r e g u L T /\ gd c r g.
Lemma dep_leaf c r e : dep c r e -> has_leaf w e = true.
Proof. intros (g & u & L & T & H & _). apply (i_leaf _ _ _ _ _ _ _ _ _ _ _ _ _ H). Qed.

Lemma unit_smooth op s a : unit_op op -> all_smooth fresh use s env op a.
Proof. intros H i _. destruct op; cbn in *; auto; contradiction. Qed.
Lemma step_un c r op a g u L T : Inv c r a g u L T -> gd c r g -> nc a -> unit_op op ->
  exists g', back_unary Rnum same op a g = Ok g' /\ Inv c r (EUn op a) g' u L T /\ gd c r g'.
Proof.
  intros H G Ha Ho. destruct (inv_un fresh use same same_ok env w nw nw_pos env0 c r u L T op a g H (unit_smooth op _ a Ho)) as (g' & E1 & E2 & _).
  destruct (gd_back_unary c r op a g Ha (inv_mat _ _ _ _ _ _ nw_pos env0 _ _ _ _ _ _ _ H) (inv_fit _ _ _ _ _ _ nw_pos env0 _ _ _ _ _ _ _ H) G Ho) as (g2 & E3 & E4).
  exists g'. split; [exact E1|]. split; [exact E2|]. congruence.
Qed.

Lemma val_exp c r a i : fit c r a -> (i < c * r)%nat -> val i (EUn UExp a) = exp (val i a).
Proof. intros F Hi. apply (val_un fresh use [c; r]); [exact F|cbn; lia]. Qed.
Lemma val_exp1 c r a i : fit c r a -> (i < c * r)%nat -> val i (EUn (UAddL 1) (EUn UExp a)) = 1 + exp (val i a).
Proof. intros F Hi. rewrite (val_un fresh use [c; r]); [|exact F|cbn; lia]. rewrite (val_exp c r) by auto. reflexivity. Qed.
Lemma val_exp2 c r a i : fit c r a -> (i < c * r)%nat -> val i (EUn (UAddR 1) (EUn UExp a)) = exp (val i a) + 1.
Proof. intros F Hi. rewrite (val_un fresh use [c; r]); [|exact F|cbn; lia]. rewrite (val_exp c r) by auto. reflexivity. Qed.

Lemma square_nc a : nc a -> exists d, mk_binary Rnum same BMul a a = Ok d /\ nc d /\ (d = EUn (UPow 2) a \/ d = EBin BMul a a).
Proof. intros H. destruct (times_nc a a H H) as [[_ E]|E]; rewrite E; eexists; (split; [reflexivity|]); (split; [now try apply nc_un|auto]). Qed.

Lemma dep_sig c r a : dep c r a -> nc a -> dep c r (sig_of a).
Proof.
  intros (g & u & L & T & H & G) Ha. pose proof (inv_fit _ _ _ _ _ _ nw_pos env0 _ _ _ _ _ _ _ H) as F.
  destruct (step_un c r UExp a g u L T H G Ha I) as (g1 & _ & H1 & G1).
  destruct (step_un c r (UAddL 1) _ g1 u L T H1 G1 I I) as (g2 & _ & H2 & G2).
  assert (S : all_smooth fresh use [c; r] env (UDivL 1) (EUn (UAddL 1) (EUn UExp a))).
  { intros i Hi. rewrite (val_exp1 c r) by (auto; cbn in Hi; lia). cbn. pose proof (exp_pos (val i a)). lra. }
  destruct (inv_un fresh use same same_ok env w nw nw_pos env0 c r u L T (UDivL 1) _ g2 H2 S) as (g3 & E3 & H3 & _).
  exists g3, u, L, T. split; [exact H3|]. pose proof (inv_mat _ _ _ _ _ _ nw_pos env0 _ _ _ _ _ _ _ H2) as M2. pose proof (inv_fit _ _ _ _ _ _ nw_pos env0 _ _ _ _ _ _ _ H2) as F2.
  cbn [back_unary] in E3. destruct (gd_mul c r (n_neg Rnum 1) g2) as (m & Em & Gm); [cbn; lra|exact G2|]. rewrite Em in E3. cbn [bind] in E3.
  destruct (square_nc (EUn (UAddL 1) (EUn UExp a)) I) as (d & Ed & Nd & Hd). rewrite Ed in E3. cbn [bind] in E3.
  destruct (gd_over c r m d Gm) as (g' & E' & G').
  - split; [exact Nd|]. destruct Hd as [-> | ->]; (split; [|discriminate]); [now apply un_mat|]. destruct (gfit_ev _ _ _ _ _ F2) as (t & Et & Ft). now apply (bin_mat_l _ _ _ _ _ _ _ _ t).
  - destruct Hd as [-> | ->]; [exact F2|split; exact F2].
  - congruence.
Qed.
Lemma dep_tanh c r a : dep c r a -> nc a -> dep c r (tanh_of a).
Proof.
  intros (g & u & L & T & H & G) Ha. destruct (step_un c r (UMulL 2) a g u L T H G Ha ltac:(cbn; lra)) as (g1 & _ & H1 & G1).
  pose proof (inv_fit _ _ _ _ _ _ nw_pos env0 _ _ _ _ _ _ _ H1) as F1.
  assert (N1 : nc (EUn (UMulL 2) a)) by exact I. destruct (step_un c r UExp _ g1 u L T H1 G1 N1 I) as (g2 & E2 & H2 & G2).
  set (x := EUn UExp (EUn (UMulL 2) a)) in *. pose proof (inv_fit _ _ _ _ _ _ nw_pos env0 _ _ _ _ _ _ _ H2) as F2. pose proof (inv_mat _ _ _ _ _ _ nw_pos env0 _ _ _ _ _ _ _ H2) as M2.
  assert (K2 : full c r g2 /\ fit c r g2).
  { cbn [back_unary mk_unary bind fold_node] in E2. assert (Fx : full c r x) by (split; [exact I|split; [exact M2|discriminate]]). destruct (gd_times c r g1 x G1 Fx F2) as (g' & E' & K1 & K2). fold x in E2. assert (g' = g2) by congruence. subst. auto. }
  destruct K2 as (K2 & K3).
  destruct (step_un c r (USubR 1) x g2 u L T H2 G2 I I) as (ga & Ea & Ha3 & _). cbn [back_unary] in Ea. injection Ea as <-.
  destruct (step_un c r (UAddR 1) x g2 u L T H2 G2 I I) as (gb & Eb & Hb3 & _). cbn [back_unary] in Eb. injection Eb as <-.
  assert (Dv : div_ok fresh use env c r BDiv (EUn (UAddR 1) x)).
  { intros _ i Hi. unfold x. rewrite (val_exp2 c r) by auto. pose proof (exp_pos (val i (EUn (UMulL 2) a))). lra. }
  destruct (inv_bin fresh use same same_ok env w nw nw_pos env0 c r u L T BDiv _ _ _ _ Ha3 Hb3 Dv) as (g3 & E3 & H3 & _).
  exists g3, u, L, T. split; [exact H3|]. split; [apply (i_g _ _ _ _ _ _ _ _ _ _ _ _ _ H3)|]. left.
  set (A := EUn (USubR 1) x) in *. set (B := EUn (UAddR 1) x) in *.
  cbn [back_binary] in E3. assert (NA : nc A) by exact I. assert (NB : nc B) by exact I.
  assert (MA : mat c r A) by now apply un_mat. assert (MB : mat c r B) by now apply un_mat. assert (FA : fit c r A) by exact F2. assert (FB : fit c r B) by exact F2.
  assert (UA : full c r A) by (split; [exact I|split; [exact MA|discriminate]]). assert (UB' : full c r B) by (split; [exact I|split; [exact MB|discriminate]]).
  destruct (gd_times c r g2 B G2 UB' FB) as (X & EX & (X1 & X2 & _) & X3). destruct (gd_times c r g2 A G2 UA FA) as (Y & EY & (Y1 & Y2 & _) & Y3).
  assert (XY : X <> Y).
  { destruct (times_nc g2 B (proj1 K2) NB) as [[B1 B2]|B2]; destruct (times_nc g2 A (proj1 K2) NA) as [[A1 A2]|A2]; rewrite B2 in EX; rewrite A2 in EY; injection EX as <-; injection EY as <-; intros E; try discriminate.
    rewrite A1 in B1. discriminate. }
  rewrite EX, EY in E3. cbn [bind] in E3. destruct (square_nc B NB) as (d & Ed & Nd & Hd).
  assert (Es : mk_binary Rnum same BSub X Y = Ok (EBin BSub X Y)).
  { cbn [mk_binary]. destruct (same X Y) eqn:S; [now apply same_ok in S|]. now rewrite (cview_nonconst X (nc_nonconst _ X1)), (cview_nonconst Y (nc_nonconst _ Y1)). }
  rewrite Es, Ed in E3. cbn [bind mk_binary] in E3. destruct (same (EBin BSub X Y) d) eqn:S.
  { apply same_ok in S. destruct Hd as [-> | ->]; discriminate. }
  rewrite (cview_nonconst d (nc_nonconst _ Nd)) in E3. cbn [cview_of] in E3. injection E3 as <-. apply full_bin.
  assert (Fd : fit c r d) by (destruct Hd as [-> | ->]; [exact FB|split; exact FB]). destruct (gfit_ev _ _ _ _ d Fd) as (td & Td & Ftd).
  apply (bin_mat_l _ _ _ _ _ _ _ _ td); auto. destruct (gfit_ev _ _ _ _ Y Y3) as (ty & Ty & Fty). now apply (bin_mat_l _ _ _ _ _ _ _ _ ty).
Qed.
Lemma dep_closed c r : closed (dep c r).
Proof.
  constructor.
  - intros op a (g & u & L & T & H & G) Ha Ho. destruct (step_un c r op a g u L T H G Ha Ho) as (g' & _ & H' & G'). exists g', u, L, T. auto.
  - apply dep_sig.
  - apply dep_tanh.
Qed.

(** ---- nodes without it ---- *)
Definition indep (c r : nat) (e : @expr R) : Prop := has_leaf w e = false /\ mat c r e.
Lemma indep_closed c r : closed (indep c r).
Proof.
  assert (U : forall op a, indep c r a -> indep c r (EUn op a)) by (intros op a [H1 H2]; split; [exact H1|now apply un_mat]).
  constructor; auto.
  - intros a H _. unfold sig_of. auto.
  - intros a H _. unfold tanh_of. split; [cbn; now rewrite (proj1 H)|].
    destruct (ismat_ev fresh use env c r (EUn (UAddR 1) (EUn UExp (EUn (UMulL 2) a)))) as (t & Et & Ft); [now apply U, U, U|]. apply (bin_mat_l _ _ _ _ _ _ _ _ t); auto. now apply U, U, U.
Qed.

(** ---- layers ---- *)
Definition layer_of (e : @expr R) (p b : nat) : @expr R := EAxB 1 (EMat false false e (EVar p)) (EVar b).
Lemma var_mat c r p : matrix c r (env p) -> mat c r (EVar p).
Proof. intros M. exists (env p). split; [reflexivity|exact M]. Qed.
Lemma var_tr c r p : matrix c r (env p) -> transposable fresh use env c r (EVar p).
Proof. intros M. apply (transposable_node fresh use same same_ok env); [exact I|now apply var_mat]. Qed.
Lemma leaf_other p : p <> w -> has_leaf w (@EVar R p) = false.
Proof. intros H. cbn. now apply Nat.eqb_neq. Qed.
Lemma eq_full c r e : mat c r e -> full c r (EEq e e).
Proof. intros M. split; [exact I|]. split; [now apply ones_node|discriminate]. Qed.
Lemma good_axb (P : @expr R -> Prop) e p b : P (layer_of e p b) -> good P (layer_of e p b).
Proof. intros H. split; [exact H|]. split; [exact I|discriminate]. Qed.

Lemma layer_dep n c r e p b : dep n r e -> nc e -> p <> w -> b <> w -> matrix c n (env p) -> vector c (env b) -> dep c r (layer_of e p b).
Proof.
  intros (g & u & L & T & H & G) He Hp Hb Mp Vb.
  pose proof (inv_matl fresh use same same_ok same_mat env w nw nw_pos env0 c r n false e (EVar p) g u L T H (nc_not_tr _ He) (leaf_other p Hp) (var_tr c n p Mp) (gd_nz _ _ _ G)) as H1. cbn zeta in H1.
  destruct (inv_bias fresh use same env w nw nw_pos env0 c r _ (EVar b) _ _ _ _ (env b) H1 (leaf_other b Hb) eq_refl Vb) as (g' & H2 & E2 & _). rewrite (E2 I) in H2.
  eexists _, _, _, _. split; [exact H2|]. apply gd_full; [|apply (i_g _ _ _ _ _ _ _ _ _ _ _ _ _ H2)]. apply eq_full. apply (inv_mat _ _ _ _ _ _ nw_pos env0 _ _ _ _ _ _ _ H1).
Qed.
Lemma layer_indep n c r e p b : indep n r e -> p <> w -> b <> w -> matrix c n (env p) -> vector c (env b) -> indep c r (layer_of e p b).
Proof.
  intros [H M] Hp Hb Mp Vb. split.
  - unfold layer_of. cbn [has_leaf]. rewrite H. pose proof (leaf_other p Hp) as L1. pose proof (leaf_other b Hb) as L2. cbn [has_leaf] in L1, L2. now rewrite L1, L2.
  - apply (bias_node fresh use env c r _ _ (env b)); auto. apply (mat_node fresh use env c r n); [exact M|now apply var_mat].
Qed.
Lemma layer_weight n c r e b : nw = (c * n)%nat -> indep n r e -> nc e -> b <> w -> matrix c n (env w) -> vector c (env b) -> dep c r (layer_of e w b).
Proof.
  intros En [H M] He Hb Mp Vb.
  pose proof (inv_var fresh use same env w nw nw_pos c n Mp En) as H0.
  assert (Z : is_zero_const Rnum (EConst (const_scalar 1)) = false) by (cbn [is_zero_const]; apply scalar_not_zero; lra).
  pose proof (inv_matr fresh use same same_ok same_mat env w nw nw_pos env0 c r n false e (EVar w) _ _ _ _ H0 I H (transposable_node fresh use same same_ok env n r e (nc_not_tr _ He) M) Z) as H1. cbn zeta in H1.
  destruct (inv_bias fresh use same env w nw nw_pos env0 c r _ (EVar b) _ _ _ _ (env b) H1 (leaf_other b Hb) eq_refl Vb) as (g' & H2 & E2 & _). rewrite (E2 I) in H2.
  eexists _, _, _, _. split; [exact H2|]. apply gd_full; [|apply (i_g _ _ _ _ _ _ _ _ _ _ _ _ _ H2)]. apply eq_full. apply (inv_mat _ _ _ _ _ _ nw_pos env0 _ _ _ _ _ _ _ H1).
Qed.
Lemma layer_bias n c r e p : nw = c -> indep n r e -> p <> w -> matrix c n (env p) -> vector c (env w) -> dep c r (layer_of e p w).
Proof.
  intros En [H M] Hp Mp Vb.
  assert (Mm : mat c r (EMat false false e (EVar p))) by (apply (mat_node fresh use env c r n); [exact M|now apply var_mat]).
  assert (Lm : has_leaf w (EMat false false e (EVar p)) = false) by (cbn [has_leaf]; rewrite H; apply (leaf_other p Hp)).
  pose proof (inv_biasvar fresh use same env w nw nw_pos same_axb c r _ Vb En Lm Mm) as H1.
  eexists _, _, _, _. split; [exact H1|]. apply gd_scalar. lra.
Qed.

(** ---- the squared error ---- *)
Lemma error_dep c r out ex : dep c r out -> nc out -> ex <> w -> matrix c r (env ex) ->
  exists E g u L T, (diff <- mk_binary Rnum same BSub (EVar ex) out ;; mk_binary Rnum same BMul diff diff) = Ok E /\ Inv c r E g u L T /\ mat c r g.
Proof.
  intros D Ho Hx Mx. pose proof (dep_leaf c r out D) as Lo. destruct D as (g & u & L & T & H & G).
  assert (Es : mk_binary Rnum same BSub (EVar ex) out = Ok (EBin BSub (EVar ex) out)).
  { cbn [mk_binary]. destruct (same (EVar ex) out) eqn:S; [apply same_ok in S; subst out; rewrite (leaf_other ex Hx) in Lo; discriminate|].
    now rewrite (cview_nonconst out (nc_nonconst _ Ho)). }
  rewrite Es. cbn [bind]. set (D := EBin BSub (EVar ex) out).
  assert (Cx : cst fresh use env w c r (EVar ex)) by (split; [now apply leaf_other|]; exact (ismat_ev _ _ _ _ _ _ (var_mat _ _ _ Mx))).
  destruct (inv_bin_r fresh use same same_ok env w nw nw_pos env0 c r u L T BSub (EVar ex) out g Cx H ltac:(discriminate)) as (g1 & E1 & H1 & _). fold D in H1.
  assert (G1 : gd c r g1).
  { cbn [back_binary mk_binary] in E1. destruct (same zero_node g) eqn:S; [apply same_ok in S; subst g; pose proof (gd_nz _ _ _ G) as Z; rewrite zero_is in Z; discriminate|].
    rewrite zero_cview in E1. cbn [mk_unary] in E1. injection E1 as <-. now apply gd_neg. }
  pose proof (inv_mat _ _ _ _ _ _ nw_pos env0 _ _ _ _ _ _ _ H1) as MD. pose proof (inv_fit _ _ _ _ _ _ nw_pos env0 _ _ _ _ _ _ _ H1) as FD.
  assert (UD : full c r D) by now apply full_bin.
  destruct (times_nc D D I I) as [[_ E]|E]; rewrite E.
  - assert (Sm : all_smooth fresh use [c; r] env (UPow 2) D) by (intros i _; right; exists 2%Z; split; [reflexivity|left; lia]).
    destruct (inv_un fresh use same same_ok env w nw nw_pos env0 c r u L T (UPow 2) D g1 H1 Sm) as (g2 & E2 & H2 & _).
    exists (EUn (UPow 2) D), g2, u, L, T. split; [reflexivity|]. split; [exact H2|].
    cbn [back_unary] in E2. destruct (gd_mul c r 2 g1) as (m & Em & Gm); [lra|exact G1|]. rewrite Em in E2. cbn [bind] in E2.
    assert (Ep : mk_unary Rnum (UPow (n_sub Rnum 2 (n_one Rnum))) D = Ok D).
    { cbn [mk_unary]. rewrite Reqb_no by (cbn; lra). replace (n_sub Rnum 2 (n_one Rnum)) with (n_one Rnum) by (cbn; lra). now rewrite Reqb_yes. }
    rewrite Ep in E2. cbn [bind] in E2. destruct (gd_times c r m D Gm UD FD) as (g' & E' & (_ & M' & _) & _). rewrite E' in E2. injection E2 as <-. exact M'.
  - destruct (inv_bin fresh use same same_ok env w nw nw_pos env0 c r u L T BMul D D g1 g1 H1 H1 ltac:(discriminate)) as (g2 & E2 & H2 & _).
    exists (EBin BMul D D), g2, u, L, T. split; [reflexivity|]. split; [exact H2|].
    cbn [back_binary] in E2. destruct (gd_times c r g1 D G1 UD FD) as (g' & E' & (N' & M' & _) & F'). rewrite E' in E2. cbn [bind mk_binary] in E2.
    rewrite (cview_nonconst g' (nc_nonconst _ N')) in E2. injection E2 as <-. destruct (gfit_ev _ _ _ _ g' F') as (t & Et & Ft). now apply (bin_mat_l _ _ _ _ _ _ _ _ t).
Qed.

(** ---- networks ---- *)
Notation params ls := (flat_map (fun p => fc_variables (fst p)) ls).
Context (st : @store R).
Fixpoint out_cols (n : nat) (hs : list (nat * @act R)) : nat := match hs with [] => n | (c, _) :: hs => out_cols c hs end.
Definition acts (hs : list (nat * @act R)) : Prop := Forall (fun h => (0 < fst h)%nat /\ smooth_act same (snd h)) hs.

Lemma rest_dep r ls hs n e : chain st n ls hs -> acts hs -> (forall p, In p (params ls) -> initialized env st p) -> ~ In w (params ls) -> (0 < n)%nat ->
  good (dep n r) e -> exists e', mlp_fold Rnum same ls e = Ok e' /\ good (dep (out_cols n hs) r) e'.
Proof.
  revert n hs e. induction ls as [|[l f] ls IH]; intros n [|[c f'] hs] e; cbn [chain]; try contradiction; intros C A Hi Hw Hn G.
  - exists e. auto.
  - destruct C as (<- & (p & b & vw & vb & W1 & W2 & W3 & W4 & W5) & C). inversion A as [|? ? [A1 A2] A3]; subst. cbn [fst snd] in A1, A2. cbn [flat_map fst] in Hi, Hw.
    assert (Ev : fc_variables l = [p; b]) by (unfold fc_variables; now rewrite W1). rewrite Ev in Hi, Hw. cbn [app In] in Hi, Hw.
    cbn [mlp_fold]. rewrite fc_call_single, W1. cbn [bind].
    assert (Mp : matrix c n (env p)) by (apply (init_matrix _ _ _ _ _ _ (Hi p (or_introl eq_refl)) W2 W3); auto).
    assert (Vb : vector c (env b)) by (apply (init_vector _ _ _ _ _ (Hi b (or_intror (or_introl eq_refl))) W4 W5); auto).
    assert (D : dep c r (layer_of e p b)) by (destruct G as (G1 & G2 & _); apply (layer_dep n); tauto).
    destruct (act_ok same same_ok (dep c r) f (layer_of e p b) (dep_closed c r) A2 (good_axb _ _ _ _ D)) as (e1 & E1 & G1).
    unfold layer_of in E1. rewrite E1. cbn [bind out_cols]. apply IH; try tauto; auto 6.
Qed.
Lemma net_dep r ls hs n e : chain st n ls hs -> acts hs -> (forall p, In p (params ls) -> initialized env st p) -> NoDup (params ls) -> In w (params ls) ->
  nw = length (snd (env w)) -> (0 < n)%nat -> (0 < r)%nat ->
  good (indep n r) e -> exists e', mlp_fold Rnum same ls e = Ok e' /\ good (dep (out_cols n hs) r) e'.
Proof.
  revert n hs e. induction ls as [|[l f] ls IH]; intros n [|[c f'] hs] e; cbn [chain]; try contradiction; intros C A Hi Nd Hw En Hn Hr G.
  destruct C as (<- & (p & b & vw & vb & W1 & W2 & W3 & W4 & W5) & C). inversion A as [|? ? [A1 A2] A3]; subst. cbn [fst snd] in A1, A2. cbn [flat_map fst] in Hi, Hw, Nd.
  assert (Ev : fc_variables l = [p; b]) by (unfold fc_variables; now rewrite W1). rewrite Ev in Hi, Hw, Nd. cbn [app In] in Hi, Hw, Nd.
  inversion Nd as [|? ? N1 Nd']; subst. inversion Nd' as [|? ? N2 Nd2]; subst.
  cbn [mlp_fold]. rewrite fc_call_single, W1. cbn [bind out_cols].
  assert (Mp : matrix c n (env p)) by (apply (init_matrix _ _ _ _ _ _ (Hi p (or_introl eq_refl)) W2 W3); auto).
  assert (Vb : vector c (env b)) by (apply (init_vector _ _ _ _ _ (Hi b (or_intror (or_introl eq_refl))) W4 W5); auto).
  destruct (Nat.eq_dec p w) as [Ep|Np]; [|destruct (Nat.eq_dec b w) as [Eb|Nb]].
  - assert (D : dep c r (layer_of e p b)).
    { subst p. pose proof Mp as (M1 & M2 & M3 & M4). apply (layer_weight n); [congruence|exact (proj1 G)|exact (proj1 (proj2 G))| |exact Mp|exact Vb]. intros ->. apply N1. now left. }
    destruct (act_ok same same_ok (dep c r) f (layer_of e p b) (dep_closed c r) A2 (good_axb _ _ _ _ D)) as (e1 & E1 & G1).
    unfold layer_of in E1. rewrite E1. cbn [bind]. apply rest_dep; auto. subst p. intros Hin. apply N1. now right.
  - assert (D : dep c r (layer_of e p b)).
    { subst b. pose proof Vb as (V1 & V2 & V3). apply (layer_bias n); [congruence|exact (proj1 G)|exact Np|exact Mp|exact Vb]. }
    destruct (act_ok same same_ok (dep c r) f (layer_of e p b) (dep_closed c r) A2 (good_axb _ _ _ _ D)) as (e1 & E1 & G1).
    unfold layer_of in E1. rewrite E1. cbn [bind]. apply rest_dep; auto. now subst b.
  - assert (D : indep c r (layer_of e p b)) by (apply (layer_indep n); [exact (proj1 G)|exact Np|exact Nb|exact Mp|exact Vb]).
    destruct (act_ok same same_ok (indep c r) f (layer_of e p b) (indep_closed c r) A2 (good_axb _ _ _ _ D)) as (e1 & E1 & G1).
    unfold layer_of in E1. rewrite E1. cbn [bind]. apply IH; auto. destruct Hw as [Hw|[Hw|Hw]]; [congruence|congruence|exact Hw].
Qed.

Lemma total_sum E c r e : ismat fresh use E c r e -> total (eval Rnum fresh use E e) = sumR (fun i => nval fresh use E i e) (c * r).
Proof.
  intros (t & Et & M). unfold total, nval. rewrite Et. pose proof M as (Hc & Hr & Ln & _).
  assert (X : forall l, fold_right Rplus 0 l = sumR (fun i => nth i l 0) (length l)).
  { induction l as [|x l IHl]; [reflexivity|]. cbn [fold_right length]. change (S (length l)) with (1 + length l)%nat. rewrite sumR_app. cbn [sumn nth Nat.add]. rewrite IHl. lra. }
  rewrite X, Ln. apply sumR_ext. intros i Hi. cbn [elem]. unfold at_. destruct (snd t) as [|v [|v' l]] eqn:E2; try reflexivity. cbn in Ln. assert (i = 0%nat) by nia. now subst.
Qed.
Lemma inv_result c r E g u L T : Inv c r E g u L T -> mat c r g ->
  exists Y y, derive Rnum fresh use same env w E = Ok Y /\ ev Y = Ok y /\ fits (fst (env w)) y /\ length (snd y) = nw /\
    forall k, (k < nw)%nat -> derivable_pt_lim (fun x => total (eval Rnum fresh use (envr k x) E)) (at_ (env w) k) (at_ y k).
Proof.
  intros H M. destruct (inv_derive fresh use same env w nw c r E g u L T H (fun _ => M)) as (Y & y & E1 & E2 & E3 & E4 & E5).
  exists Y, y. split; [exact E1|]. split; [exact E2|]. split; [exact E3|]. split; [now apply E4|]. intros k Hk.
  eapply lim_ext; [|apply (E5 k Hk)]. intros x. cbv beta. symmetry. apply total_sum. apply (i_val _ _ _ _ _ _ _ _ _ _ _ _ _ H). exact Hk.
Qed.
End Net.
