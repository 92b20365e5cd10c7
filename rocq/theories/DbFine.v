(** The nodes that fine tuning builds and their values. *)
From Coq Require Import String Reals Lra Lia Permutation.
From Verif Require Import Common CseModel ShapeModel ShapeProofs ShapeSpec TransformSpec TransformModel TransformProofs TransformLaws MatmulSpec ElemModel ElemProofs NumSpec RealNum ElemLaws GradModel GradSpec GradProofs MatrixSpec MatrixProofs MlpSpec MlpModel MlpProofs MlpLaws CopyLaws NetSpec NetProofs NetMlpProofs NetLaws GroupModel GroupProofs GroupSubst RbmTrainProofs DbSpec DbModel DbGrad DbProofs DbNet DbCalc.
Local Open Scope list_scope.
Local Open Scope R_scope.

Lemma plain_hs hid c : plain (db_hs hid c).
Proof. unfold plain, db_hs. apply Forall_app. split; [|constructor; [now right|constructor]]. induction hid; constructor; auto. Qed.

(** leaves and shape of the nodes of a chain *)
Lemma fold_leaf same (st : @store R) v ls n hs e z : chain st n ls hs -> plain hs -> mlp_fold Rnum same ls e = Ok z -> has_leaf v z = true -> has_leaf v e = true \/ In v (params ls).
Proof.
  revert n hs e. induction ls as [|[l f] ls IH]; intros n [|[c f'] hs] e; cbn [chain]; try contradiction; intros C A E H.
  - injection E as <-. now left.
  - destruct C as (<- & (p & b & vw & vb & W1 & _) & C). inversion A as [|? ? A1 A2]; subst. cbn [snd] in A1.
    assert (Ev : fc_variables l = [p; b]) by (unfold fc_variables; now rewrite W1). cbn [flat_map fst]. rewrite Ev.
    cbn [mlp_fold] in E. rewrite fc_call_single, W1 in E. cbn [bind] in E. destruct (f (EAxB 1 (EMat false false e (EVar p)) (EVar b))) as [o| | |] eqn:Eo; try discriminate E. cbn [bind] in E.
    destruct (IH c hs o C A2 E H) as [Lo|Hi]; [|right; cbn [app In]; auto].
    rewrite (act_leaf v f (EAxB 1 (EMat false false e (EVar p)) (EVar b)) o A1 I Eo) in Lo. cbn [has_leaf] in Lo. apply Bool.orb_true_iff in Lo. destruct Lo as [Lo|Lo]; [apply Bool.orb_true_iff in Lo; destruct Lo as [Lo|Lo]; [now left|]|];
      apply Nat.eqb_eq in Lo; right; cbn [app In]; auto.
Qed.
Lemma fold_nas same (st : @store R) w ls n hs e z : chain st n ls hs -> plain hs -> mlp_fold Rnum same ls e = Ok z -> no_axis_sum w e -> no_axis_sum w z.
Proof.
  revert n hs e. induction ls as [|[l f] ls IH]; intros n [|[c f'] hs] e; cbn [chain]; try contradiction; intros C A E H.
  - injection E as <-. exact H.
  - destruct C as (<- & (p & b & vw & vb & W1 & _) & C). inversion A as [|? ? A1 A2]; subst. cbn [snd] in A1.
    cbn [mlp_fold] in E. rewrite fc_call_single, W1 in E. cbn [bind] in E. destruct (f (EAxB 1 (EMat false false e (EVar p)) (EVar b))) as [o| | |] eqn:Eo; try discriminate E. cbn [bind] in E.
    apply (IH c hs o C A2 E). destruct A1 as [-> | ->].
    + rewrite sigmoid_node in Eo by exact I. injection Eo as <-. cbn [no_axis_sum]. auto.
    + injection Eo as <-. cbn [no_axis_sum]. auto.
Qed.
Lemma fold_same (s1 s2 : @expr R -> @expr R -> bool) (st : @store R) ls n hs e : chain st n ls hs -> mlp_fold Rnum s1 ls e = mlp_fold Rnum s2 ls e.
Proof.
  revert n hs e. induction ls as [|[l f] ls IH]; intros n [|[c f'] hs] e; cbn [chain]; try contradiction; [reflexivity|]. intros (<- & _ & C). cbn [mlp_fold]. rewrite !fc_call_single.
  destruct (fc_wb l) as [|[w b] [|? ?]]; reflexivity.
Qed.
Lemma fold_last same (st : @store R) rs l n hid c e z : chain st n (db_ls rs l) (db_hs hid c) -> length rs = length hid -> mlp_fold Rnum same (db_ls rs l) e = Ok z -> exists a b, z = EAxB 1 a b.
Proof.
  intros C L E. unfold db_ls in E. rewrite mlp_fold_app in E. destruct (mlp_fold Rnum same (map lay rs) e) as [x| | |]; try discriminate E. cbn [bind mlp_fold] in E. rewrite fc_call_single in E.
  destruct (fc_wb l) as [|[w b] [|? ?]]; try discriminate E. cbn [bind mk_id] in E. injection E as <-. eauto.
Qed.
Lemma hs_acts same hid c : Forall (fun h => (0 < h)%nat) (hid ++ [c]) -> acts same (db_hs hid c).
Proof.
  intros H. unfold acts, db_hs. apply Forall_app in H. destruct H as [H1 H2]. apply Forall_app. split.
  - induction H1 as [|h hid Hh _ IH]; constructor; [|exact IH]. split; [exact Hh|apply act_sigmoid].
  - inversion H2; subst. constructor; [|constructor]. split; [assumption|apply act_id].
Qed.
Lemma hs_cols n hid c : out_cols n (db_hs hid c) = c.
Proof. unfold db_hs. revert n. induction hid as [|h hid IH]; intros n; cbn [map app out_cols]; auto. Qed.
Lemma init_set env (st : @store R) p k x q : initialized env st q -> initialized (set_elem env p k x) st q.
Proof.
  intros (v & D & S & L). exists v. split; [exact D|]. unfold set_elem. destruct (Nat.eqb_spec q p) as [->|]; [|auto]. cbn [fst snd]. split; [exact S|].
  rewrite <- L. destruct (snd (env p)) as [|a [|b l]]; [now rewrite length_set_nth|reflexivity|now rewrite length_set_nth].
Qed.

Section Fine.
Context (gsame : @gexpr R -> @gexpr R -> bool) (fresh : nat -> R) (use : bool).
Context (gs_ok : forall a b, gsame a b = true -> a = b) (gs_mat : forall tA tB a b, gsame (GMat tA tB a b) (GMat tA tB a b) = true) (gs_ax : forall axis a b, gsame (GAx BAdd false axis a b) (GAx BAdd false axis a b) = true).
Context (st' : @store R) (n b : nat) (hid : list nat) (c : nat) (rs : list rbm) (l : fc_layer) (vars : list nat) (env : nat -> tens R) (ti : nat).
Context (Hn : (0 < n)%nat) (Hb : (0 < b)%nat) (Hs : Forall (fun h => (0 < h)%nat) (hid ++ [c])) (Lr : length rs = length hid) (C : chain st' n (db_ls rs l) (db_hs hid c)).
Context (HL : forall env, belief_layers env vars (hid ++ [c]) = layers_of Rnum env (params (db_ls rs l)) (map fst (db_hs hid c)) (db_gs hid)).
Context (Hi : forall p, In p (params (db_ls rs l)) -> initialized env st' p) (Nd : NoDup (params (db_ls rs l))) (Nt : ~ In ti (params (db_ls rs l))) (Mt : matrix n b (env ti)).
Notation N := (c * b)%nat.
Notation zl := (logit env vars (hid ++ [c]) n (env ti)).
Notation gev := (geval Rnum fresh use INR env).

Lemma node_ok same : exists z tz a a', mlp_fold Rnum same (db_ls rs l) (EVar ti) = Ok z /\ z = EAxB 1 a a' /\ eval Rnum fresh use env z = Ok tz /\ matrix c b tz /\ forall i, (i < N)%nat -> at_ tz i = zl i.
Proof.
  destruct (logits_ok fresh use same st' n b hid c rs l vars Hb Hs C HL env (EVar ti) (env ti) Hi eq_refl Mt) as (z & tz & Z1 & Z2 & Z3 & Z4).
  destruct (fold_last _ _ _ _ _ _ _ _ _ C Lr Z1) as (a & a' & Ez). eauto 10.
Qed.

(** a node that is not a constant, times the learning rate *)
Lemma scale_any env1 lr Y y : 0 < lr -> match Y with GConst _ => False | _ => True end -> geval Rnum fresh use INR env1 Y = Ok y ->
  is_fully_defined (fst y) = true -> length (snd y) = n_elems (fst y) ->
  exists U u, gunary Rnum (UMulL lr) Y = Ok U /\ geval Rnum fresh use INR env1 U = Ok u /\ length (snd u) = n_elems (fst u) /\ length (snd u) = length (snd y) /\ forall k, at_ u k = lr * at_ y k.
Proof.
  intros Hl Hc Ey Fy Ly.
  assert (Z : gunary Rnum (UMulL lr) Y = Ok (if Reqb 1 lr then Y else GUn (UMulL lr) Y)).
  { cbn [gunary]. change (n_zero Rnum) with 0. change (n_one Rnum) with 1. change (n_neg Rnum 1) with (-(1)). change (Reqb 1 lr) with (n_eqb Rnum 1 lr). destruct Y; try contradiction; rewrite (Reqb_no 0 lr), (Reqb_no (- (1)) lr) by lra; destruct (n_eqb Rnum 1 lr); reflexivity. }
  rewrite Z. destruct (Reqb 1 lr) eqn:E1.
  - apply Reqb_iff in E1. subst lr. exists Y, y. split; [reflexivity|]. split; [exact Ey|]. split; [exact Ly|]. split; [reflexivity|]. intros k. symmetry. apply Rmult_1_l.
  - exists (GUn (UMulL lr) Y), (ushape (fst y), map (fun x => lr * x) (snd y)). split; [reflexivity|]. split; [|split; [cbn [fst snd]; rewrite map_length, ushape_n; exact Ly|split]].
    + cbn [geval]. rewrite Ey. cbn [bind]. cbn [sem]. rewrite unary_ok by (split; auto). reflexivity.
    + apply map_length.
    + intros k. unfold at_. cbn [snd]. destruct (snd y) as [|x0 [|x1 l0]]; [destruct k; cbn; ring|reflexivity|]. cbn [map].
      destruct k as [|k]; [reflexivity|]. cbn [nth]. change (lr * x1 :: map (fun x => lr * x) l0) with (map (fun x => lr * x) (x1 :: l0)).
      pose proof (map_nth (fun x => lr * x) (x1 :: l0) 0 k) as Q. cbv beta in Q. rewrite Rmult_0_r in Q. exact Q.
Qed.

Notation cost_node z := (GUn UNeg (GBin BDiv (GSum None (inj (lg z))) (GSize None (inj (lg z))))).
Lemma softmax_node same z : (forall a b, same a b = true -> a = b) -> layer_node z -> mk_softmax Rnum same z = Ok (sm z).
Proof.
  intros Hsame Hz. unfold mk_softmax. assert (F : mk_unary Rnum UExp z = Ok (EUn UExp z)) by (destruct z; try contradiction; reflexivity).
  rewrite F. cbn [bind mk_binary]. rewrite (differ same Hsame) by discriminate. reflexivity.
Qed.
Lemma cost_build z : db_cost Rnum gsame (sm z) = Ok (cost_node z).
Proof.
  unfold db_cost. cbn [mk_unary fold_node sm bind]. unfold gmean, gbinary. cbn [grouping ghelper].
  destruct (gsame _ _) eqn:E; [apply gs_ok in E; discriminate|]. reflexivity.
Qed.

Section Param.
Context (p : nat) (Hp : In p (params (db_ls rs l))) (z : @expr R) (tz : tens R) (za zb : @expr R).
Context (Z1 : forall same, mlp_fold Rnum same (db_ls rs l) (EVar ti) = Ok z) (Z2 : z = EAxB 1 za zb) (Z3 : eval Rnum fresh use env z = Ok tz) (Z4 : matrix c b tz) (Z5 : forall i, (i < N)%nat -> at_ tz i = zl i).
Definition vx : nat := S (list_max (ti :: params (db_ls rs l))).
Lemma vx_new v : v = ti \/ In v (params (db_ls rs l)) -> (v < vx)%nat.
Proof.
  intros H. unfold vx. assert (F := proj1 (list_max_le (ti :: params (db_ls rs l)) _) (le_n _)). rewrite Forall_forall in F.
  assert (v <= list_max (ti :: params (db_ls rs l)))%nat; [|lia]. apply F. destruct H as [->|H]; cbn [In]; auto.
Qed.
Lemma z_leaf v : has_leaf v z = true -> v = ti \/ In v (params (db_ls rs l)).
Proof.
  intros H. destruct (fold_leaf (fun _ _ => false) st' v _ _ _ _ _ C (plain_hs hid c) (Z1 _) H) as [Q|Q]; [left|now right]. cbn [has_leaf] in Q. apply Nat.eqb_eq in Q. auto.
Qed.
Lemma vx_free : has_leaf vx z = false.
Proof. destruct (has_leaf vx z) eqn:E; [|reflexivity]. apply z_leaf, vx_new in E. lia. Qed.
Lemma lg_free : has_leaf vx (lg z) = false.
Proof. unfold lg, sm, ez. cbn [has_leaf]. now rewrite vx_free. Qed.
Definition envx (v : nat) : tens R := if (v =? vx)%nat then ([1%nat], [INR N]) else env v.
Definition same_x (x y : @expr R) : bool := gsame (injs vx None (inj (lg z)) x) (injs vx None (inj (lg z)) y).
Lemma envx_old v : v <> vx -> envx v = env v.
Proof. intros H. unfold envx. now rewrite (proj2 (Nat.eqb_neq v vx) H). Qed.
Lemma envx_ok v : v = ti \/ In v (params (db_ls rs l)) -> envx v = env v.
Proof. intros H. apply envx_old. apply vx_new in H. lia. Qed.
Lemma evx e : has_leaf vx e = false -> eval Rnum fresh use envx e = eval Rnum fresh use env e.
Proof. intros H. apply eval_ext. intros v Hv. apply envx_old. intros ->. congruence. Qed.
Lemma sx_ok x y : same_x x y = true -> x = y.
Proof. unfold same_x. intros H. apply gs_ok, injs_inj in H. exact H. Qed.
Lemma sx_mat tA tB x y : same_x (EMat tA tB x y) (EMat tA tB x y) = true.
Proof. apply gs_mat. Qed.
Lemma sx_ax axis x y : same_x (EAxB axis x y) (EAxB axis x y) = true.
Proof. apply gs_ax. Qed.
Lemma p_lt : (0 < length (snd (env p)))%nat /\ forall k v, (k < length (snd (env p)))%nat -> set_elem env p k (at_ (env p) k) v = env v.
Proof.
  assert (Hpos : Forall (fun h : nat * @act R => (0 < fst h)%nat) (db_hs hid c)) by (rewrite <- hs_fst in Hs; now rewrite Forall_map in Hs).
  destruct (chain_params env st' n _ _ p C Hn Hpos Hi Hp) as [(c' & r' & M)|(c' & V)].
  - split; [destruct M as (? & ? & -> & _); nia|]. now apply (mat_env0 c' r').
  - split; [destruct V as (? & ? & ->); lia|]. now apply (vec_env0 c').
Qed.
Lemma envx_0 k v : (k < length (snd (env p)))%nat -> set_elem envx p k (at_ (envx p) k) v = envx v.
Proof.
  intros Hk. rewrite (envx_ok p) by auto. pose proof (proj2 p_lt k v Hk) as E. unfold set_elem in *. destruct (Nat.eqb_spec v p) as [->|]; [|reflexivity]. rewrite (envx_ok p) by auto. exact E.
Qed.
Lemma z_dep : exists g u L T, inv fresh use same_x envx p (length (snd (env p))) c b z g u L T /\ gd fresh use envx c b g /\ nc z.
Proof.
  assert (Gi : good (indep fresh use envx p n b) (EVar ti)).
  { split; [|split; [exact I|discriminate]]. split; [cbn; apply Nat.eqb_neq; intros ->; contradiction|]. exists (envx ti). split; [reflexivity|]. rewrite envx_ok by auto. exact Mt. }
  assert (Hx : forall q, In q (params (db_ls rs l)) -> initialized envx st' q).
  { intros q Hq. destruct (Hi q Hq) as (v & A). exists v. rewrite envx_ok by auto. exact A. }
  destruct (net_dep fresh use same_x sx_ok sx_mat sx_ax envx p (length (snd (env p))) (proj1 p_lt) envx_0 st' b _ _ n (EVar ti) C (hs_acts same_x hid c Hs) Hx Nd Hp ltac:(rewrite envx_ok by auto; reflexivity) Hn Hb Gi) as (out & E1 & (D & Nc & _)).
  rewrite (Z1 same_x) in E1. injection E1 as <-. rewrite hs_cols in D. destruct D as (g & u & L & T & H1 & H2). exists g, u, L, T. auto.
Qed.
Lemma z_val i : (i < N)%nat -> nval fresh use envx i z = zl i.
Proof. intros H. unfold nval. rewrite evx by apply vx_free. rewrite Z3. cbn [elem]. auto. Qed.
Lemma size_ok : gev (GSize None (inj (lg z))) = Ok (envx vx).
Proof.
  assert (M : ismat fresh use env c b (lg z)) by (apply lg_mat; exists tz; auto). destruct M as (t & E & M).
  unfold envx. rewrite Nat.eqb_refl. apply (g_size fresh use env _ t); [rewrite geval_inj; exact E|]. now rewrite (matrix_n _ _ _ M).
Qed.
(** the partial derivatives of the outputs *)
Lemma z_lim k x i : (i < N)%nat -> nval fresh use (set_elem envx p k x) i z = logit (set_elem env p k x) vars (hid ++ [c]) n (env ti) i.
Proof.
  intros H. unfold nval. rewrite (eval_ext fresh use _ (set_elem env p k x)).
  2: { intros v Hv. unfold set_elem. apply z_leaf in Hv. destruct (Nat.eqb_spec v p) as [->|]; now rewrite (envx_ok _) by auto. }
  assert (Et : set_elem env p k x ti = env ti) by (unfold set_elem; destruct (Nat.eqb_spec ti p) as [Q|]; [exfalso; apply Nt; now rewrite Q|reflexivity]).
  destruct (logits_ok fresh use (fun _ _ => false) st' n b hid c rs l vars Hb Hs C HL (set_elem env p k x) (EVar ti) (env ti)) as (z' & tz' & A1 & A2 & A3 & A4).
  - intros q Hq. apply init_set, Hi, Hq.
  - cbn [eval]. now rewrite Et.
  - exact Mt.
  - rewrite (Z1 _) in A1. injection A1 as <-. rewrite A2. cbn [elem]. now apply A4.
Qed.

Lemma param_gradient : exists Y y, gderive Rnum fresh use INR gsame env p (cost_node z) = Ok Y /\ match Y with GConst _ => False | _ => True end /\ gev Y = Ok y /\
  is_fully_defined (fst y) = true /\ length (snd y) = n_elems (fst y) /\ length (snd y) = length (snd (env p)) /\
  forall k, (k < length (snd (env p)))%nat -> exists D : nat -> R,
    (forall i, (i < N)%nat -> derivable_pt_lim (fun x => logit (set_elem env p k x) vars (hid ++ [c]) n (env ti) i) (at_ (env p) k) (D i)) /\
    at_ y k = Sum (fun i => (share zl N i - 1) / INR N * D i) N.
Proof.
  destruct z_dep as (g & u & L & T & H & G & Nz). pose proof (proj1 p_lt) as Np.
  destruct (lg_info fresh use same_x sx_ok envx p _ Np envx_0 c b z g u L T H G Nz) as (n1 & d1 & I1 & _ & _ & _). cbn zeta in I1. set (gl := EBin BDiv (EBin BDiv n1 d1) (sm z)) in *.
  assert (Vx : envx vx = ([1%nat], [INR N])) by (unfold envx; now rewrite Nat.eqb_refl).
  destruct (cost_root fresh use same_x sx_ok envx p _ Np envx_0 c b z g u L T H G Nz vx Vx gl I1) as (X & x & X1 & X2 & X3 & X4).
  pose proof (i_leaf _ _ _ _ _ _ _ _ _ _ _ _ _ H) as Lz.
  assert (Ll : has_leaf p (lg z) = true) by (unfold lg, sm, ez; cbn [has_leaf]; now rewrite Lz).
  assert (Ns : no_axis_sum p (lg z)).
  { assert (S : no_axis_sum p z) by (apply (fold_nas (fun _ _ => false) st' p _ _ _ (EVar ti) z C (plain_hs hid c) (Z1 _)); exact I). unfold lg, sm, ez. cbn [no_axis_sum]. auto. }
  pose proof (info_injs Rnum fresh use INR gsame vx None (inj (lg z)) env envx size_ok envx_old p (lg z) Ns lg_free) as J.
  change (info Rnum fresh use (fun a b0 => gsame (injs vx None (inj (lg z)) a) (injs vx None (inj (lg z)) b0)) envx p (lg z)) with (info Rnum fresh use same_x envx p (lg z)) in J.
  rewrite I1, injs_free in J by apply lg_free.
  set (inx := injs vx None (inj (lg z))) in *.
  assert (R1 : GroupModel.ginfo Rnum fresh use INR gsame env p (cost_node z) = (Ok (inx X), option_map (injs_j vx None (inj (lg z))) (jac_of u L))).
  { cbn [GroupModel.ginfo]. rewrite J. unfold injs_i. cbn [fst snd gleaf]. rewrite leaf_inj, Ll. cbn [orb].
    change (@None (@glist R)) with (option_map (injs_j vx None (inj (lg z))) None) at 1.
    assert (Ij : forall j : option jlist, ginherit gsame None (option_map (injs_j vx None (inj (lg z))) j) = option_map (injs_j vx None (inj (lg z))) (inherit same_x None j)).
    { intros j. exact (inherit_injs gsame vx None (inj (lg z)) None j). }
    assert (Tj : forall j : option jlist, gterminal (option_map (injs_j vx None (inj (lg z))) j) = terminal j) by (intros j; apply terminal_injs).
    rewrite !Ij. rewrite !inherit_jac. cbn [ginherit]. rewrite !Ij, !inherit_jac. rewrite !Tj, !term_jac. cbn [rmap bind]. f_equal.
    change (GSum None (inj (lg z))) with (GSum None (inj (lg z))).
    assert (Es : GSum None (inj (lg z)) = inx (ESum (lg z))) by (unfold inx; cbn [injs]; rewrite injs_free by apply lg_free; reflexivity).
    assert (Ev : GSize None (inj (lg z)) = inx (EVar vx)) by (unfold inx; cbn [injs]; rewrite Nat.eqb_refl; reflexivity).
    rewrite Es, Ev. change (injs vx None (inj (lg z)) gl) with (inx gl). change (GConst (const_scalar (n_zero Rnum))) with (inx (EConst (const_scalar 0))).
    change (GBin BDiv (inx (ESum (lg z))) (inx (EVar vx))) with (inx (EBin BDiv (ESum (lg z)) (EVar vx))).
    unfold inx. rewrite back2_injs. change (fun a b0 => gsame (injs vx None (inj (lg z)) a) (injs vx None (inj (lg z)) b0)) with same_x.
    destruct (back_binary Rnum same_x BDiv (ESum (lg z)) (EVar vx) gl (EConst (const_scalar 0))) as [d| | |]; try discriminate X1. cbn [bind] in X1. cbn [rmap bind]. rewrite back1_injs.
    change (fun a b0 => gsame (injs vx None (inj (lg z)) a) (injs vx None (inj (lg z)) b0)) with same_x. rewrite X1. reflexivity. }
  destruct (i_jac _ _ _ _ _ _ _ _ _ _ _ _ _ H X x X2 (matrix_fits _ _ _ X3) (fun _ => X3)) as (Y & y & Y1 & Y2 & Y3 & Y4 & Y5).
  assert (Hd : headed fresh use same_x envx (jac_of u L)).
  { assert (Q : headed fresh use same_x envx (snd (info Rnum fresh use same_x envx p z))).
    { apply (chain_head fresh use same_x sx_ok envx p st' _ _ _ (EVar ti) z C (plain_hs hid c) Nd Hp); [cbn; apply Nat.eqb_neq; intros ->; contradiction|apply Z1]. }
    now rewrite (i_info _ _ _ _ _ _ _ _ _ _ _ _ _ H) in Q. }
  assert (NY : nonconst Y).
  { destruct L as [|en L']; [destruct Hd as (? & ? & ? & Q & _); discriminate Q|]. exact (headed_call fresh use same_x envx _ X Y Hd Y1). }
  exists (inx Y), y. split; [|split; [|split; [|split; [|split; [|split]]]]].
  - unfold gderive. rewrite R1. unfold gderive_of. cbn [fst snd bind]. destruct L as [|en L']; [destruct Hd as (? & ? & ? & Q & _); discriminate Q|]. cbn [jac_of option_map injs_j gj_list j_list].
    change (injs_en vx None (inj (lg z)) en :: map (injs_en vx None (inj (lg z))) L') with (map (injs_en vx None (inj (lg z))) (en :: L')) || idtac.
    unfold inx. rewrite (call_injs Rnum fresh use INR gsame vx None (inj (lg z)) env envx size_ok envx_old).
    change (fun a b0 => gsame (injs vx None (inj (lg z)) a) (injs vx None (inj (lg z)) b0)) with same_x. rewrite Y1. reflexivity.
  - unfold inx. destruct Y; cbn [injs]; auto. destruct (v =? vx)%nat; exact I.
  - unfold inx. rewrite (geval_injs Rnum fresh use INR vx None (inj (lg z)) env envx size_ok envx_old). exact Y2.
  - apply Y3.
  - apply Y3.
  - now apply Y4.
  - intros k Hk. exists (fun i => nval fresh use envx i g * T k i). split.
    + intros i Hlt. pose proof (i_lim _ _ _ _ _ _ _ _ _ _ _ _ _ H k i Hk Hlt) as Q. rewrite (envx_ok p) in Q by auto. eapply lim_ext; [|exact Q]. intros x0. cbv beta. now apply z_lim.
    + rewrite Y5 by exact Hk. apply sumR_ext. intros i Hlt. rewrite X4 by exact Hlt. rewrite z_val by exact Hlt. unfold share.
      rewrite (sumR_ext (fun j => exp (nval fresh use envx j z)) (fun j => exp (zl j))) by (intros; now rewrite z_val). unfold Rdiv. ring.
Qed.
End Param.
End Fine.
