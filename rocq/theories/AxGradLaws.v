(** C67: gradients through the axial operations. *)
From Coq Require Import Reals Lra Lia.
From Verif Require Import Common ShapeModel ShapeSpec ShapeProofs TransformSpec TransformModel TransformProofs TransformLaws MatmulSpec MatmulModel ElemSpec ElemModel ElemProofs CseModel NumSpec RealNum ElemLaws GradModel GradSpec GradProofs GradLaws NetSpec NetProofs NetMlpProofs NetLaws GroupModel GroupProofs CoordSum ShapeGradSpec ShapeGradLaws SumGradLaws.
Local Open Scope R_scope.
From Verif Require RbmTrainProofs.
From Verif Require ShapeLaws.

(** where the axial operations of a tensor of shape s and one without axis i work (C24): s is a
    full shape of rank above one, its axis i is not of extent one, the smaller tensor has more
    than one element, and if the axis is the first the first two extents differ *)
Definition spreadable (i : nat) (s : shape) : Prop :=
  is_fully_defined s = true /\ (1 < length s)%nat /\ (i < length s)%nat /\ (1 < n_elems (axis_removed i s))%nat /\
  nth i s 0%nat <> 1%nat /\ (i = 0%nat -> nth 0 s 0%nat <> nth 1 s 0%nat).
(** which position of the smaller tensor belongs to a position of the larger one *)
Definition below (i : nat) (s : shape) (j : nat) : nat := offset (remove_at i s) (remove_at i (coords s j)).
Section P.
Context (fresh : nat -> R) (use : bool) (gsame : @gexpr R -> @gexpr R -> bool).
Notation gev := (geval Rnum fresh use INR).
Notation gd := (gderive Rnum fresh use INR gsame).
Notation gi := (GroupModel.ginfo Rnum fresh use INR gsame).
Definition F (op : bop) (lft : bool) (sm bg : R) : R := if lft then bop_lambda Rnum op sm bg else bop_lambda Rnum op bg sm.

Lemma axial_value i s op lft sm bg : spreadable i s -> length sm = n_elems (axis_removed i s) -> length bg = n_elems s ->
  sem Rnum fresh use INR (KAx op lft i) (if lft then [(axis_removed i s, sm); (s, bg)] else [(s, bg); (axis_removed i s, sm)])
  = Ok (s, map (fun j => F op lft (nth (below i s j) sm 0) (nth j bg 0)) (seq 0 (n_elems s))).
Proof.
  intros (Fd & L1 & Hi & Hs & _ & H0') Ls Lb. assert (H0 : i = 0%nat -> nth 0 s 0%nat <> nth 1 s 0%nat \/ nth 0 s 0%nat = 1%nat) by (intros X; left; auto). cbn [sem].
  destruct (C24_axial_elements_lemma R fresh (bop_lambda Rnum op) lft i s sm bg Fd L1 Hi Lb Ls ltac:(lia) H0) as (d & E & Ld & H).
  etransitivity; [exact E|]. do 2 f_equal. apply nth_error_ext_lt; [rewrite map_length, seq_length; exact Ld|].
  pose proof Fd as D. apply is_fully_defined_iff in D. intros j Hj. rewrite Ld in Hj. rewrite nth_error_map, nth_error_seq by lia. cbn [option_map Nat.add].
  assert (Hp : (j < prod s)%nat) by (rewrite <- n_elems_prod by apply D; exact Hj).
  destruct (H (coords s j)) as (x & y & E1 & E2 & E3); [apply coords_in_bounds; apply D|].
  rewrite offset_coords_lt in E2, E3 by (apply D || exact Hp). rewrite E3. unfold below. rewrite (nth_error_nth _ _ _ E1 : nth _ sm 0 = x), (nth_error_nth _ _ _ E2 : nth j bg 0 = y). reflexivity.
Qed.
Lemma below_lt i s j : spreadable i s -> (j < n_elems s)%nat -> (below i s j < n_elems (axis_removed i s))%nat.
Proof.
  intros (Fd & L1 & Hi & Hs & _ & H0') Hj. assert (H0 : i = 0%nat -> nth 0 s 0%nat <> nth 1 s 0%nat \/ nth 0 s 0%nat = 1%nat) by (intros X; left; auto). 
  destruct (C24_axial_elements_lemma R (fun _ => 0) Rplus false i s (repeat 0 (n_elems (axis_removed i s))) (repeat 0 (n_elems s)) Fd L1 Hi ltac:(now rewrite repeat_length) ltac:(now rewrite repeat_length) ltac:(rewrite repeat_length; lia) H0) as (d & E & Ld & H).
  pose proof Fd as D. apply is_fully_defined_iff in D.
  destruct (H (coords s j)) as (x & y & E1 & _); [apply coords_in_bounds; apply D|].
  assert (X : nth_error (repeat 0 (n_elems (axis_removed i s))) (below i s j) <> None) by (unfold below; congruence).
  apply nth_error_Some in X. now rewrite repeat_length in X.
Qed.
(** the gradient of an expression without w *)
Lemma no_axis w (c : @expr R) : has_leaf w c = false -> no_axis_sum w c.
Proof. induction c; cbn; auto; intros H; apply Bool.orb_false_iff in H; destruct H; auto. Qed.
Lemma info_zero env w c : has_leaf w c = false -> gi env w (inj c) = (Ok (GConst (const_scalar (n_zero Rnum))), None).
Proof. intros Hw. rewrite (info_inj Rnum fresh use INR gsame env w c (no_axis w c Hw)), free_ginfo by exact Hw. reflexivity. Qed.
Lemma value_set env w k x c : has_leaf w c = false -> gev (set_elem env w k x) (inj c) = gev env (inj c).
Proof.
  intros H. rewrite !geval_inj. apply eval_ext. intros v Hv. apply set_elem_other. intros ->. congruence.
Qed.
Lemma view_inj (c : @expr R) : (forall t, c <> EConst t) -> gview Rnum (inj c) = CNone.
Proof. intros H. destruct c; try reflexivity. now destruct (H t). Qed.
Lemma leaf_view w (e : @expr R) : has_leaf w e = true -> gview Rnum (inj e) = CNone.
Proof. intros H. apply view_inj. intros t ->. discriminate. Qed.

Context (gsame_ok : forall a b, gsame a b = true -> a = b).
Definition axnode (op : bop) (lft : bool) (i : nat) (sm bg : @gexpr R) : @gexpr R := GAx op lft i (if lft then sm else bg) (if lft then bg else sm).
Lemma axnode_value env op lft i s sm bg ls lb : spreadable i s -> gev env sm = Ok (axis_removed i s, ls) -> length ls = n_elems (axis_removed i s) ->
  gev env bg = Ok (s, lb) -> length lb = n_elems s ->
  gev env (axnode op lft i sm bg) = Ok (s, map (fun j => F op lft (nth (below i s j) ls 0) (nth j lb 0)) (seq 0 (n_elems s))).
Proof.
  intros Hs Es Ls Eb Lb. pose proof (axial_value i s op lft ls lb Hs Ls Lb) as V. unfold axnode. destruct lft; cbn [geval]; rewrite Es, Eb; cbn [bind]; exact V.
Qed.
Lemma total_map (f : nat -> R) s n : total (Ok (s, map f (seq 0 n))) = sumR f n.
Proof.
  cbn [total snd]. rewrite sum_list, map_length, seq_length. apply sumR_ext. intros j Hj.
  rewrite (nth_indep _ 0 (f 0%nat)) by (rewrite map_length, seq_length; exact Hj). rewrite (map_nth f), seq_nth by exact Hj. reflexivity.
Qed.
Lemma big_deriv env w e c lc op lft i s : spreadable i s -> proper s env w e -> has_leaf w c = false ->
  gev env (inj c) = Ok (axis_removed i s, lc) -> length lc = n_elems (axis_removed i s) ->
  exists g t le, gi env w (inj e) = (Ok (inj g), None) /\ gd env w (inj e) = Ok (inj g) /\ gev env (inj g) = Ok t /\ fits s t /\
    gev env (inj e) = Ok (s, le) /\ length le = n_elems s /\ (forall j, (j < n_elems s)%nat -> nth j le 0 = den j (fun v => at_ (env v) j) e) /\
    forall D : nat -> R, (forall j, (j < n_elems s)%nat -> derivable_pt_lim (F op lft (nth (below i s j) lc 0)) (nth j le 0) (D j)) ->
      forall k, (k < n_elems s)%nat -> derivable_pt_lim (fun x => total (gev (set_elem env w k x) (axnode op lft i (inj c) (inj e)))) (at_ (env w) k) (D k * at_ t k).
Proof.
  intros Hs P Hc Ec Lc. destruct (base fresh use INR gsame gsame_ok s env w e P) as (g & t & I & Dg & V & Ft & Q & _).
  pose proof P as (Fd & N1 & Hl & Hw & Es & Ln & Hr).
  assert (Fw : fits s (env w)) by (split; [congruence|]; split; [congruence|now left]).
  pose proof (same_ok gsame gsame_ok) as Sok.
  destruct (C36_gradient_lemma fresh use _ Sok s env w e Fd Hl Fw Hr) as (g' & t' & E1 & E2 & _ & E4).
  assert (t' = t) as ->.
  { pose proof (derive_inj Rnum fresh use INR gsame env w e (leaves_axis w s env e Hl)) as X. rewrite Dg, E1 in X. cbn [rmap] in X. injection X as X. 
    assert (Y : gev env (inj g) = gev env (inj g')) by now rewrite X. rewrite !geval_inj, V, E2 in Y. congruence. }
  destruct (value_full fresh use s env w e Fd N1 Hl Hw Es Ln) as (le & El & Ll).
  exists g, t, le. split; [exact I|]. split; [exact Dg|]. split; [now rewrite geval_inj|]. split; [exact Ft|]. split; [now rewrite geval_inj|]. split; [exact Ll|].
  destruct (C36_value_lemma fresh use s env e Hl) as (t0 & T1 & _ & T3). rewrite El in T1. injection T1 as <-.
  assert (De : forall j, (j < n_elems s)%nat -> nth j le 0 = den j (fun v => at_ (env v) j) e).
  { intros j Hj. rewrite <- T3 by exact Hj. symmetry. exact (RbmTrainProofs.at_nth' (s, le) j _ Ll Hj). }
  split; [exact De|].
  intros D HD k Hk.
  apply (lim_ext (fun x => sumR (fun j => F op lft (nth (below i s j) lc 0) (elem (eval Rnum fresh use (set_elem env w k x) e) j)) (n_elems s))).
  { intros x. destruct (Q k x) as (l & X1 & X2). assert (Ec' : gev (set_elem env w k x) (inj c) = Ok (axis_removed i s, lc)) by (rewrite value_set by exact Hc; exact Ec).
    rewrite (axnode_value (set_elem env w k x) op lft i s (inj c) (inj e) lc l Hs Ec' Lc X1 X2).
    rewrite total_map. apply sumR_ext. intros j Hj. rewrite geval_inj in X1. rewrite X1. cbn [elem]. now rewrite (RbmTrainProofs.at_nth' (s, l) j _ X2 Hj). }
  eapply lim_val; [|apply (lim_sum _ (fun j => if (j =? k)%nat then D k * at_ t k else 0))].
  - rewrite (sumR_ext _ (fun j => (fun _ => D k * at_ t k) j * (if (j =? k)%nat then 1 else 0))) by (intros j _; cbv beta; destruct (j =? k)%nat; ring).
    now rewrite (sumR_delta (fun _ => D k * at_ t k)).
  - intros j Hj. destruct (Nat.eqb_spec j k) as [->|Hjk].
    + pose proof (proj2 (E4 k Hk)) as X. assert (Y : elem (eval Rnum fresh use (set_elem env w k (at_ (env w) k)) e) k = nth k le 0).
      { destruct (C36_value_lemma fresh use s (set_elem env w k (at_ (env w) k)) e) as (u & U1 & _ & U3); [now apply set_elem_leaves|]. rewrite U1. cbn [elem].
        rewrite U3, De by exact Hk. apply den_ext. intros v. destruct (Nat.eq_dec v w) as [->|Hv]; [now apply (set_elem_at_self s)|now rewrite set_elem_other]. }
      apply (derivable_pt_lim_comp _ (F op lft (nth (below i s k) lc 0)) _ _ _ X). cbv beta. rewrite Y. now apply HD.
    + apply (lim_ext (fct_cte (F op lft (nth (below i s j) lc 0) (elem (eval Rnum fresh use env e) j)))); [|apply derivable_pt_lim_const].
      intros x. unfold fct_cte. f_equal. symmetry. apply (C36_local_lemma fresh use s); auto. congruence.
Qed.

(** the gradient of an elementwise expression is one of elementwise operations *)
Lemma grad_gfit env w e s : proper s env w e -> forall g, gd env w (inj e) = Ok (inj g) -> gfit fresh use s env g.
Proof.
  intros (Fd & N1 & Hl & Hw & Es & Ln & Hr) g Dg.
  assert (Fw : fits s (env w)) by (split; [congruence|]; split; [congruence|now left]).
  assert (TG : tangent fresh use s env (fun a b => gsame (inj a) (inj b)) w 0 (fun i => if (length (snd (env w)) =? 1)%nat then 1 else if (i =? 0)%nat then 1 else 0) e).
  { apply tangent_elem; auto.
    - exact (same_ok gsame gsame_ok).
    - exact (fd_pos s Fd).
    - intros v. apply (set_elem_same s); auto. exact (fd_pos s Fd).
    - apply (leaves_atoms s env); auto.
      + intros v _ Hv. destruct (Nat.eq_dec v w) as [->|Hvw]; [|now apply tangent_other]. apply tangent_self; [exact Fw|]. intros i Hi.
        destruct (Nat.eqb_spec (length (snd (env w))) 1) as [L1|L1]; [congruence|].
        destruct (Nat.eqb_spec i 0) as [->|Hik].
        * apply (lim_ext id); [|apply derivable_pt_lim_id]. intros r. symmetry. now apply (set_elem_at_self s).
        * apply (lim_ext (fct_cte (at_ (env w) i))); [|apply derivable_pt_lim_const]. intros r. symmetry. now apply set_elem_at_other.
      + intros t Ht. now apply tangent_const.
    - now apply regular_v.
    - now apply (elem_noterm _ _ _ s). }
  destruct TG as (_ & g' & G1 & G2 & _).
  pose proof (derive_inj Rnum fresh use INR gsame env w e (leaves_axis w s env e Hl)) as X. rewrite Dg in X. unfold derive, derive_of in X. 
  rewrite (elem_no_jac fresh use _ s) in X by exact Hl. unfold grad in G1. rewrite G1 in X. cbn [bind rmap] in X. injection X as X. apply inj_one in X. now subst g'.
Qed.
Notation sm := (fun a b : expr => gsame (inj a) (inj b)).
Definition zero_c : @expr R := EConst (const_scalar (n_zero Rnum)).
Lemma zero_view : cview_of Rnum zero_c = CZero.
Proof. exact zero_cview. Qed.
Lemma helper_zero op ax a b : gview Rnum a = CZero \/ gview Rnum b = CZero -> ghelper Rnum gsame op ax a b = ghelper Rnum gsame op None a b.
Proof.
  intros H. destruct op; cbn [ghelper]; try (destruct (gsame a b); [reflexivity|]); destruct H as [H|H]; rewrite H; try reflexivity; destruct (gview Rnum a); reflexivity.
Qed.
Lemma axial_zero op lft i a b : a = zero_c \/ b = zero_c -> gaxial Rnum gsame op lft i (inj a) (inj b) = rmap inj (mk_binary Rnum sm op a b).
Proof.
  intros H. unfold gaxial. rewrite helper_zero by (rewrite !GroupProofs.view_inj; destruct H as [->| ->]; rewrite zero_view; auto).
  rewrite <- (binary_inj Rnum gsame). unfold gbinary. now rewrite !group_inj.
Qed.
Lemma axial_some op lft i a b : gsame a b = false -> gview Rnum a = CNone -> gview Rnum b = CNone -> gaxial Rnum gsame op lft i a b = Ok (GAx op lft i a b).
Proof. intros S A B. unfold gaxial. destruct op; cbn [ghelper]; rewrite ?S, A, B; reflexivity. Qed.
Lemma not_same w c e : has_leaf w c = false -> has_leaf w e = true -> gsame (inj c) (inj e) = false /\ gsame (inj e) (inj c) = false.
Proof.
  intros Hc He. split; [destruct (gsame (inj c) (inj e)) eqn:E|destruct (gsame (inj e) (inj c)) eqn:E]; auto; apply gsame_ok, inj_one in E; congruence.
Qed.
Lemma builds op lft i w c e : has_leaf w c = false -> has_leaf w e = true -> (forall t, c <> EConst t) ->
  gaxial Rnum gsame op lft i (if lft then inj c else inj e) (if lft then inj e else inj c) = Ok (axnode op lft i (inj c) (inj e)).
Proof.
  intros Hc He Cc. destruct (not_same w c e Hc He) as [S1 S2]. unfold axnode. destruct lft; apply axial_some; auto using view_inj, (leaf_view w).
Qed.
(** what derive builds if w occurs in the larger argument only *)
Lemma derive_big op lft i env w c e g : has_leaf w c = false -> has_leaf w e = true -> gi env w (inj e) = (Ok (inj g), None) ->
  gd env w (axnode op lft i (inj c) (inj e)) = gbackax Rnum gsame op lft i (if lft then inj c else inj e) (if lft then inj e else inj c) (inj (if lft then zero_c else g)) (inj (if lft then g else zero_c)).
Proof.
  intros Hc He Ie. pose proof (info_zero env w c Hc) as Ic. unfold gderive, gderive_of, axnode.
  destruct lft; cbn [GroupModel.ginfo]; rewrite Ie, Ic, !leaf_inj, Hc, He; cbn [fst snd ginherit gterminal orb bind]; destruct (gbackax _ _ _ _ _ _ _ _ _); reflexivity.
Qed.

Lemma sizes i s : spreadable i s -> (n_elems s = nth i s 0 * n_elems (axis_removed i s))%nat.
Proof.
  intros (Fd & L1 & Hi & _). apply is_fully_defined_iff in Fd. rewrite axis_removed_reduced by exact L1.
  assert (Dr : defined (reduced i s)) by now apply reduced_defined.
  rewrite (n_elems_prod s) by apply Fd. rewrite (n_elems_prod (reduced i s)) by apply Dr. rewrite reduced_prod by auto. pose proof (prod_set_nth i 1%nat s Hi). lia.
Qed.
Lemma size_ne i s : spreadable i s -> n_elems s <> n_elems (axis_removed i s).
Proof. intros H. pose proof (sizes i s H) as Z. destruct H as (_ & _ & _ & H1 & H2 & _). intros E. assert (nth i s 0 = 1)%nat by nia. contradiction. Qed.
Lemma at_map_seq (f : nat -> R) s n k : (k < n)%nat -> at_ (s, map f (seq 0 n)) k = f k.
Proof.
  intros Hk. rewrite (RbmTrainProofs.at_nth' _ k n); cbn [snd]; [|now rewrite map_length, seq_length|exact Hk].
  etransitivity; [apply (nth_indep _ 0 (f 0%nat)); rewrite map_length, seq_length; exact Hk|]. now rewrite (map_nth f), seq_nth.
Qed.
Lemma two_not : n_eqb Rnum (n_two Rnum) (n_zero Rnum) = false /\ n_eqb Rnum (n_two Rnum) (n_one Rnum) = false.
Proof. split; apply Reqb_no; cbn; lra. Qed.

(** products *)
Lemma mul_builds lft i w c e g (Hc : has_leaf w c = false) (He : has_leaf w e = true) (Cc : forall t, c <> EConst t) (Cg : forall t, g <> EConst t) (Ne : g <> c) :
  gbackax Rnum gsame BMul lft i (if lft then inj c else inj e) (if lft then inj e else inj c) (inj (if lft then zero_c else g)) (inj (if lft then g else zero_c)) = Ok (axnode BMul lft i (inj c) (inj g)).
Proof.
  assert (S : gsame (inj g) (inj c) = false /\ gsame (inj c) (inj g) = false).
  { split; [destruct (gsame (inj g) (inj c)) eqn:E|destruct (gsame (inj c) (inj g)) eqn:E]; auto; apply gsame_ok, inj_one in E; congruence. }
  assert (Z : forall lft a b, (a = e /\ b = zero_c) \/ (a = zero_c /\ b = e) -> gaxial Rnum gsame BMul lft i (inj a) (inj b) = Ok (inj zero_c)).
  { intros l a b Hab. rewrite axial_zero by tauto. 
    assert (N : sm e zero_c = false /\ sm zero_c e = false).
    { split; [destruct (sm e zero_c) eqn:E|destruct (sm zero_c e) eqn:E]; auto; apply gsame_ok, inj_one in E; subst; discriminate. }
    pose proof (leaf_view w e He) as V. rewrite GroupProofs.view_inj in V.
    destruct Hab as [[-> ->]|[-> ->]]; cbn [mk_binary]; [rewrite (proj1 N), V, zero_view|rewrite (proj2 N), zero_view]; reflexivity. }
  unfold axnode. destruct lft; cbn [gbackax].
  - rewrite Z by auto. cbn [bind]. rewrite axial_some by (try apply S; apply view_inj; auto). cbn [bind]. unfold gbinary. rewrite group_inj. cbn [grouping ghelper]. rewrite GroupProofs.view_inj, zero_view. reflexivity.
  - rewrite axial_some by (try apply S; apply view_inj; auto). cbn [bind]. rewrite Z by auto. cbn [bind]. unfold gbinary. rewrite group_inj. cbn [grouping ghelper]. rewrite GroupProofs.view_inj, zero_view. reflexivity.
Qed.
Lemma div_builds i w c e g (Hc : has_leaf w c = false) (He : has_leaf w e = true) (Cc : forall t, c <> EConst t) (Cg : forall t, g <> EConst t) (Ne : g <> c) :
  gbackax Rnum gsame BDiv true i (inj c) (inj e) (inj zero_c) (inj g) = Ok (GBin BDiv (GUn UNeg (axnode BMul false i (inj c) (inj g))) (GUn (UPow (n_two Rnum)) (inj e))).
Proof.
  assert (S : gsame (inj g) (inj c) = false) by (destruct (gsame (inj g) (inj c)) eqn:E; auto; apply gsame_ok, inj_one in E; congruence).
  assert (N : sm zero_c e = false) by (destruct (sm zero_c e) eqn:E; auto; apply gsame_ok, inj_one in E; subst; discriminate).
  cbn [gbackax]. rewrite axial_zero by auto. cbn [mk_binary]. rewrite N, zero_view. cbn [rmap bind]. rewrite (axial_some BMul false) by (auto; apply view_inj; auto). cbn [bind].
  assert (B : gbinary Rnum gsame BSub (inj (EConst (const_scalar (n_zero Rnum)))) (GAx BMul false i (inj g) (inj c)) = Ok (GUn UNeg (GAx BMul false i (inj g) (inj c)))).
  { assert (X : gsame (inj (EConst (const_scalar (n_zero Rnum)))) (GAx BMul false i (inj g) (inj c)) = false) by (destruct (gsame (inj _) (GAx _ _ _ _ _)) eqn:E; auto; apply gsame_ok in E; discriminate).
    unfold gbinary. rewrite group_inj. cbn [grouping ghelper]. rewrite X, GroupProofs.view_inj. change (EConst (const_scalar (n_zero Rnum))) with zero_c. rewrite zero_view. reflexivity. }
  rewrite B. cbn [bind negb]. cbn [gunary]. rewrite (proj1 two_not), (proj2 two_not). rewrite fold_inj.
  assert (Fe : fold_node Rnum (UPow (n_two Rnum)) e = EUn (UPow (n_two Rnum)) e) by (destruct e; try reflexivity; discriminate).
  rewrite Fe. cbn [inj bind]. unfold gbinary. cbn [grouping ghelper]. change (GUn (UPow (n_two Rnum)) (inj e)) with (inj (EUn (UPow (n_two Rnum)) e)). rewrite group_inj. cbn [grouping ghelper].
  destruct (gsame (GUn UNeg _) _) eqn:E; [apply gsame_ok in E; discriminate|]. reflexivity.
Qed.

Lemma zero_gfit s env : (0 < n_elems s)%nat -> gfit fresh use s env zero_c.
Proof. intros H. apply gfit_const_intro, fits_scalar. Qed.
Lemma addsub_big op lft i s env w e c lc : op = BAdd \/ op = BSub -> spreadable i s -> proper s env w e -> has_leaf w c = false -> (forall t, c <> EConst t) ->
  gev env (inj c) = Ok (axis_removed i s, lc) -> length lc = n_elems (axis_removed i s) ->
  exists x g, gaxial Rnum gsame op lft i (if lft then inj c else inj e) (if lft then inj e else inj c) = Ok x /\ gd env w x = Ok g /\ right fresh use s env w x (gev env g).
Proof.
  intros Hop Hs P Hc Cc Ec Lc. pose proof P as (Fd & N1 & Hl & Hw & Es & Ln & Hr).
  destruct (big_deriv env w e c lc op lft i s Hs P Hc Ec Lc) as (g & t & le & I & Dg & V & Ft & El & Ll & De & Q).
  pose proof (grad_gfit env w e s P g Dg) as Gg.
  assert (Np : (0 < n_elems s)%nat) by exact (fd_pos s Fd).
  set (a' := if lft then zero_c else g). set (b' := if lft then g else zero_c).
  assert (Ga : gfit fresh use s env a') by (unfold a'; destruct lft; auto using zero_gfit).
  assert (Gb : gfit fresh use s env b') by (unfold b'; destruct lft; auto using zero_gfit).
  destruct (gives_binary fresh use s env sm (same_ok gsame gsame_ok) Np op a' b' Ga Gb) as (d & D1 & D2 & D3); [destruct Hop; subst; discriminate|].
  destruct (gfit_ev fresh use s env d D2) as (td & Td & Fdt).
  exists (axnode op lft i (inj c) (inj e)), (inj d). split; [now apply (builds op lft i w)|]. split.
  { rewrite (derive_big op lft i env w c e g Hc Hw I). destruct Hop; subst op; cbn [gbackax]; rewrite axial_zero by (unfold a', b'; destruct lft; auto); unfold a', b' in D1; rewrite D1; reflexivity. }
  exists td. rewrite geval_inj. split; [exact Td|]. split; [exact Fdt|]. intros k Hk.
  assert (Vg : nval fresh use env k g = at_ t k) by (unfold nval; rewrite geval_inj in V; now rewrite V).
  assert (Vz : nval fresh use env k zero_c = 0) by reflexivity.
  eapply lim_val; [|apply (Q (fun _ => match op, lft with BSub, true => -1 | _, _ => 1 end))]; [|intros j Hj|exact Hk].
  - specialize (D3 k Hk). unfold nval in D3 at 1. rewrite Td in D3. cbn [elem] in D3. rewrite D3. unfold a', b'. destruct Hop; subst op; destruct lft; rewrite ?Vg, ?Vz; cbn; ring.
  - set (C := nth (below i s j) lc 0). destruct Hop; subst op; destruct lft; cbn.
    + apply (lim_ext (fun y => C + y)); [reflexivity|]. eapply lim_val; [|apply derivable_pt_lim_plus; [apply derivable_pt_lim_const|apply derivable_pt_lim_id]]; ring.
    + eapply lim_val; [|apply (derivable_pt_lim_plus id (fct_cte C)); [apply derivable_pt_lim_id|apply derivable_pt_lim_const]]; ring.
    + eapply lim_val; [|apply (derivable_pt_lim_minus (fct_cte C) id); [apply derivable_pt_lim_const|apply derivable_pt_lim_id]]; ring.
    + eapply lim_val; [|apply (derivable_pt_lim_minus id (fct_cte C)); [apply derivable_pt_lim_id|apply derivable_pt_lim_const]]; ring.
Qed.

(** a gradient with all elements that is no constant node *)
Lemma full_grad i s env c lc g t : spreadable i s -> n_elems s <> 1%nat -> gev env (inj c) = Ok (axis_removed i s, lc) -> length lc = n_elems (axis_removed i s) ->
  gev env (inj g) = Ok t -> fits s t -> length (snd t) = n_elems s -> g <> c /\ exists lt, t = (s, lt) /\ length lt = n_elems s.
Proof.
  intros Hs N1 Ec Lc V (F1 & F2 & F3) L. split.
  - intros ->. rewrite Ec in V. injection V as <-. cbn [snd] in L. pose proof (size_ne i s Hs). congruence.
  - destruct t as [s' lt]. cbn [fst snd] in *. exists lt. destruct F3 as [->|F3]; [auto|congruence].
Qed.
Lemma mul_big lft i s env w e c lc g t : spreadable i s -> proper s env w e -> has_leaf w c = false -> (forall t, c <> EConst t) ->
  gev env (inj c) = Ok (axis_removed i s, lc) -> length lc = n_elems (axis_removed i s) ->
  gd env w (inj e) = Ok g -> (forall t, g <> GConst t) -> gev env g = Ok t -> length (snd t) = n_elems s ->
  exists x g, gaxial Rnum gsame BMul lft i (if lft then inj c else inj e) (if lft then inj e else inj c) = Ok x /\ gd env w x = Ok g /\ right fresh use s env w x (gev env g).
Proof.
  intros Hs P Hc Cc Ec Lc Dg' Cg V' Lt. pose proof P as (Fd & N1 & Hl & Hw & Es & Ln & Hr).
  destruct (big_deriv env w e c lc BMul lft i s Hs P Hc Ec Lc) as (g0 & t' & le & I & Dg & V & Ft & El & Ll & De & Q).
  rewrite Dg in Dg'. injection Dg' as <-. rewrite V in V'. injection V' as ->.
  assert (Cg0 : forall t, g0 <> EConst t) by (intros u ->; exact (Cg u eq_refl)).
  destruct (full_grad i s env c lc g0 t Hs N1 Ec Lc V Ft Lt) as (Ne & lt & -> & Lt').
  exists (axnode BMul lft i (inj c) (inj e)), (axnode BMul lft i (inj c) (inj g0)). split; [now apply (builds BMul lft i w)|]. split.
  { rewrite (derive_big BMul lft i env w c e g0 Hc Hw I). exact (mul_builds lft i w c e g0 Hc Hw Cc Cg0 Ne). }
  rewrite (axnode_value env BMul lft i s (inj c) (inj g0) lc lt Hs Ec Lc V Lt').
  eexists. split; [reflexivity|]. split.
  { split; [exact Fd|]. cbn [fst snd]. rewrite map_length, seq_length. auto. }
  intros k Hk. eapply lim_val; [|apply (Q (fun j => nth (below i s j) lc 0)); [intros j Hj|exact Hk]].
  - rewrite at_map_seq by exact Hk. rewrite (RbmTrainProofs.at_nth' (s, lt) k _ Lt Hk). cbn [snd]. destruct lft; cbn; ring.
  - set (C := nth (below i s j) lc 0). destruct lft; cbn.
    + apply (lim_ext (fun y => C * id y)); [reflexivity|]. eapply lim_val; [|apply derivable_pt_lim_scal, derivable_pt_lim_id]; ring.
    + apply (lim_ext (fun y => C * id y)); [intros y; unfold id, F; cbn; ring|]. eapply lim_val; [|apply derivable_pt_lim_scal, derivable_pt_lim_id]; ring.
Qed.
Lemma un_g env op x s t : gev env x = Ok t -> fits s t -> exists u, gev env (GUn op x) = Ok u /\ fits s u /\ forall k, (k < n_elems s)%nat -> at_ u k = meaning Rnum op (at_ t k).
Proof.
  intros E F. cbn [geval]. rewrite E. cbn [bind sem]. rewrite unary_ok by (eapply fits_wf; exact F).
  eexists. split; [reflexivity|]. pose proof F as (F1 & F2 & F3). split.
  + split; [now apply ushape_def|]. split; [cbn; rewrite map_length, ushape_n; exact F2|]. cbn [fst]. rewrite ushape_n.
    destruct F3 as [F3|F3]; [|now right]. unfold ushape. destruct (Nat.eqb_spec (n_elems (fst t)) 1); [now right|now left].
  + intros k Hk. rewrite (at_map _ s) by auto. now rewrite fwd_lambda_meaning.
Qed.
Lemma div_big i s env w e c lc g t : spreadable i s -> proper s env w e -> has_leaf w c = false -> (forall t, c <> EConst t) ->
  gev env (inj c) = Ok (axis_removed i s, lc) -> length lc = n_elems (axis_removed i s) ->
  (forall j, (j < n_elems s)%nat -> den j (fun v => at_ (env v) j) e <> 0) ->
  gd env w (inj e) = Ok g -> (forall t, g <> GConst t) -> gev env g = Ok t -> length (snd t) = n_elems s ->
  exists x g, gaxial Rnum gsame BDiv true i (inj c) (inj e) = Ok x /\ gd env w x = Ok g /\ right fresh use s env w x (gev env g).
Proof.
  intros Hs P Hc Cc Ec Lc Hz Dg' Cg V' Lt. pose proof P as (Fd & N1 & Hl & Hw & Es & Ln & Hr).
  destruct (big_deriv env w e c lc BDiv true i s Hs P Hc Ec Lc) as (g0 & t' & le & I & Dg & V & Ft & El & Ll & De & Q).
  rewrite Dg in Dg'. injection Dg' as <-. rewrite V in V'. injection V' as ->.
  assert (Cg0 : forall t, g0 <> EConst t) by (intros u ->; exact (Cg u eq_refl)).
  destruct (full_grad i s env c lc g0 t Hs N1 Ec Lc V Ft Lt) as (Ne & lt & -> & Lt').
  exists (axnode BDiv true i (inj c) (inj e)). eexists. split; [exact (builds BDiv true i w c e Hc Hw Cc)|]. split.
  { rewrite (derive_big BDiv true i env w c e g0 Hc Hw I). exact (div_builds i w c e g0 Hc Hw Cc Cg0 Ne). }
  pose proof (axnode_value env BMul false i s (inj c) (inj g0) lc lt Hs Ec Lc V Lt') as Va.
  set (X := map _ _) in Va.
  assert (Lx : length X = n_elems s) by (unfold X; now rewrite map_length, seq_length).
  assert (Fx : fits s (s, X)) by (split; [exact Fd|]; cbn [fst snd]; auto).
  assert (Fe : fits s (s, le)) by (split; [exact Fd|]; cbn [fst snd]; auto).
  destruct (un_g env UNeg _ s _ Va Fx) as (u1 & U1 & F1 & H1).
  destruct (un_g env (UPow (n_two Rnum)) _ s _ El Fe) as (u2 & U2 & F2 & H2).
  destruct (bin_gen fresh s (bop_lambda Rnum BDiv) u1 u2 F1 F2) as (u & U & Fu & _ & _ & Hu).
  exists u. split.
  { transitivity (ta <- gev env (GUn UNeg (axnode BMul false i (inj c) (inj g0))) ;; tb <- gev env (GUn (UPow (n_two Rnum)) (inj e)) ;; sem Rnum fresh use INR (KBin BDiv) [ta; tb]); [reflexivity|].
    rewrite U1, U2. exact U. }
  split; [exact Fu|]. intros k Hk. 
  eapply lim_val; [|apply (Q (fun j => nth (below i s j) lc 0 * (- / (nth j le 0 * nth j le 0)))); [intros j Hj|exact Hk]].
  - rewrite Hu, H1, H2 by exact Hk. unfold X. rewrite at_map_seq by exact Hk. rewrite (RbmTrainProofs.at_nth' (s, lt) k _ Lt' Hk), (RbmTrainProofs.at_nth' (s, le) k _ Ll Hk). cbn [snd].
    assert (Z : nth k le 0 <> 0) by (rewrite De by exact Hk; now apply Hz).
    cbn. rewrite (Rpow_IZR _ 2 : Rpow (nth k le 0) 2 = _). change (powerRZ (nth k le 0) 2) with (nth k le 0 ^ 2). field. exact Z.
  - set (C := nth (below i s j) lc 0). cbn. assert (Z : nth j le 0 <> 0) by (rewrite De by exact Hj; now apply Hz).
    apply (lim_ext (fun y => C * / y)); [reflexivity|]. apply derivable_pt_lim_scal, lim_inv, Z.
Qed.

Lemma small_facts i s : spreadable i s -> fits (axis_removed i s) (axis_removed i s, repeat 0 (n_elems (axis_removed i s))).
Proof.
  intros (Fd & L1 & Hi & H1 & _). split; [|cbn [fst snd]; rewrite repeat_length; auto]. cbn [fst].
  apply is_fully_defined_iff. rewrite axis_removed_reduced by exact L1. apply is_fully_defined_iff in Fd. now apply reduced_defined.
Qed.
Lemma small_ne i s : spreadable i s -> n_elems (axis_removed i s) <> 1%nat.
Proof. intros (_ & _ & _ & H & _). lia. Qed.
Lemma small_fits i s l : spreadable i s -> length l = n_elems (axis_removed i s) -> fits (axis_removed i s) (axis_removed i s, l).
Proof. intros Hs L. destruct (small_facts i s Hs) as (A & _). split; [exact A|]. cbn [fst snd] in *. auto. Qed.
(** a value of the layout of the smaller tensor is no gradient *)
Lemma small_wrong i s env w x u : spreadable i s -> n_elems s <> 1%nat -> fst u = axis_removed i s -> ~ right fresh use s env w x (Ok u).
Proof.
  intros Hs N1 E (t & Et & (_ & _ & F) & _). injection Et as Et. assert (F' : axis_removed i s = s \/ n_elems (axis_removed i s) = 1%nat) by (rewrite <- E, Et; exact F). clear F. destruct F' as [F|F].
  - apply (size_ne i s Hs). now rewrite F.
  - destruct Hs as (_ & _ & _ & H & _). lia.
Qed.
(** multiplication of the small tensor by a number *)
Lemma not_own o (c : @expr R) : c <> EUn o c.
Proof. revert o. induction c; intros o H; try discriminate. injection H as H1 H2. eapply IHc. exact H2. Qed.
Lemma times_number q env c lc v op : op = UMulL v \/ op = UMulR v -> is_fully_defined q = true -> n_elems q <> 1%nat -> (forall t, c <> EConst t) -> gev env (inj c) = Ok (q, lc) -> length lc = n_elems (q) -> v <> 0 -> v <> -1 ->
  exists y, gunary Rnum op (inj c) = Ok (inj y) /\ gev env (inj y) = Ok (q, map (Rmult v) lc) /\ (forall t, y <> EConst t) /\ (forall p, y <> EUn (UPow p) c).
Proof.
  intros Hop Fq Nq Cc Ec Lc Hv Hm.
  destruct (Req_dec v 1) as [->|H1].
  - exists c. split; [|split; [|split; [exact Cc|intros p; apply not_own]]].
    + assert (Z0 : n_eqb Rnum (n_zero Rnum) 1 = false) by (apply Reqb_no; cbn; lra). assert (Z1 : n_eqb Rnum (n_one Rnum) 1 = true) by apply Reqb_yes.
      destruct Hop as [-> | ->]; cbn [gunary]; destruct c; try (exfalso; eapply Cc; reflexivity); cbn [inj]; rewrite Z0, Z1; reflexivity.
    + rewrite Ec. do 2 f_equal. rewrite <- (map_id lc) at 1. apply map_ext. intros x. cbn. ring.
  - exists (EUn op c). assert (Z0 : n_eqb Rnum (n_zero Rnum) v = false) by (apply Reqb_no; cbn; lra). assert (Z1 : n_eqb Rnum (n_one Rnum) v = false) by (apply Reqb_no; cbn; lra). assert (Z2 : n_eqb Rnum (n_neg Rnum (n_one Rnum)) v = false) by (apply Reqb_no; cbn; lra).
    split; [|split; [|split; [discriminate|intros p E; destruct Hop; subst op; discriminate]]].
    + destruct Hop as [-> | ->]; cbn [gunary]; destruct c; try (exfalso; eapply Cc; reflexivity); cbn [inj]; rewrite Z0, Z1, Z2; reflexivity.
    + assert (F0 : fits q (q, lc)) by (split; [exact Fq|]; cbn [fst snd]; auto). cbn [inj geval]. rewrite Ec. cbn [bind sem]. rewrite unary_ok by (eapply fits_wf; exact F0).
      cbn [fst snd]. unfold ushape. destruct (Nat.eqb_spec (n_elems q) 1); [contradiction|].
      do 2 f_equal. apply map_ext. intros x. destruct Hop as [-> | ->]; cbn; ring.
Qed.
(** the gradient of the larger argument a number *)
Lemma mul_const lft i s env w e c lc v : spreadable i s -> proper s env w e -> has_leaf w c = false -> (forall t, c <> EConst t) ->
  gev env (inj c) = Ok (axis_removed i s, lc) -> length lc = n_elems (axis_removed i s) -> v <> 0 -> v <> -1 ->
  gd env w (inj e) = Ok (GConst (const_scalar v)) ->
  exists g, gd env w (axnode BMul lft i (inj c) (inj e)) = Ok g /\ gev env g = Ok (axis_removed i s, map (Rmult v) lc).
Proof.
  intros Hs P Hc Cc Ec Lc Hv Hm Dg'. pose proof P as (Fd & N1 & Hl & He & Es & Ln & Hr).
  destruct (base fresh use INR gsame gsame_ok s env w e P) as (g & t & I & Dg & _).
  rewrite Dg in Dg'. injection Dg' as Dg'. assert (g = EConst (const_scalar v)) as -> by (now apply inj_one).
  assert (N : forall b, b <> EConst (const_scalar v) -> gsame (inj (EConst (const_scalar v))) (inj b) = false /\ gsame (inj b) (inj (EConst (const_scalar v))) = false).
  { intros b Hb. split; [destruct (gsame (inj (EConst _)) (inj b)) eqn:E|destruct (gsame (inj b) (inj (EConst _))) eqn:E]; auto; apply gsame_ok, inj_one in E; congruence. }
  destruct (N c (Cc _)) as [S1 S2].
  assert (Vv : gview Rnum (inj (EConst (const_scalar v))) = COne v).
  { cbn. assert (X : Reqb 0 v = false) by (apply Reqb_no; lra). now rewrite X. }
  assert (Z : forall lft a b, (a = e /\ b = zero_c) \/ (a = zero_c /\ b = e) -> gaxial Rnum gsame BMul lft i (inj a) (inj b) = Ok (inj zero_c)).
  { intros l a b Hab. rewrite axial_zero by tauto. 
    assert (N' : sm e zero_c = false /\ sm zero_c e = false).
    { split; [destruct (sm e zero_c) eqn:E|destruct (sm zero_c e) eqn:E]; auto; apply gsame_ok, inj_one in E; subst; discriminate. }
    pose proof (leaf_view w e He) as V. rewrite GroupProofs.view_inj in V.
    destruct Hab as [[-> ->]|[-> ->]]; cbn [mk_binary]; [rewrite (proj1 N'), V, zero_view|rewrite (proj2 N'), zero_view]; reflexivity. }
  destruct lft.
  - destruct (times_number (axis_removed i s) env c lc v (UMulR v) (or_intror eq_refl) (proj1 (small_facts i s Hs)) (small_ne i s Hs) Cc Ec Lc Hv Hm) as (y & Y1 & Y2 & Y3 & _).
    exists (inj y). split; [|exact Y2]. rewrite (derive_big BMul true i env w c e _ Hc He I). cbn [gbackax]. rewrite Z by auto. cbn [bind].
    unfold gaxial. cbn [ghelper]. rewrite S2, (view_inj c Cc), Vv, Y1. cbn [bind]. unfold gbinary. rewrite group_inj. cbn [grouping ghelper]. rewrite GroupProofs.view_inj, zero_view. reflexivity.
  - destruct (times_number (axis_removed i s) env c lc v (UMulL v) (or_introl eq_refl) (proj1 (small_facts i s Hs)) (small_ne i s Hs) Cc Ec Lc Hv Hm) as (y & Y1 & Y2 & Y3 & _).
    exists (inj y). split; [|exact Y2]. rewrite (derive_big BMul false i env w c e _ Hc He I). cbn [gbackax]. 
    unfold gaxial at 1. cbn [ghelper]. rewrite S1, Vv, Y1. cbn [bind]. rewrite Z by auto. cbn [bind]. unfold gbinary. rewrite group_inj. cbn [grouping ghelper]. rewrite (view_inj y Y3), GroupProofs.view_inj, zero_view. reflexivity.
Qed.
(** the larger divided by the smaller *)
Lemma quot_throws i s env w e c lc g t : spreadable i s -> proper s env w e -> has_leaf w c = false -> (forall t, c <> EConst t) ->
  gev env (inj c) = Ok (axis_removed i s, lc) -> length lc = n_elems (axis_removed i s) ->
  gd env w (inj e) = Ok g -> (forall t, g <> GConst t) -> gev env g = Ok t -> length (snd t) = n_elems s ->
  exists g', gd env w (axnode BDiv false i (inj c) (inj e)) = Ok g' /\ gev env g' = Throw.
Proof.
  intros Hs P Hc Cc Ec Lc Dg' Cg V' Lt. pose proof P as (Fd & N1 & Hl & He & Es & Ln & Hr).
  destruct (base fresh use INR gsame gsame_ok s env w e P) as (g0 & t0 & I & Dg & V & Ft & _).
  rewrite Dg in Dg'. injection Dg' as <-. rewrite geval_inj in V'. rewrite V in V'. injection V' as ->.
  assert (Cg0 : forall t, g0 <> EConst t) by (intros u ->; exact (Cg u eq_refl)).
  assert (V0 : gev env (inj g0) = Ok t) by now rewrite geval_inj.
  destruct (full_grad i s env c lc g0 t Hs N1 Ec Lc V0 Ft Lt) as (Ne & lt & -> & Lt').
  assert (S : gsame (inj g0) (inj c) = false) by (destruct (gsame (inj g0) (inj c)) eqn:E; auto; apply gsame_ok, inj_one in E; congruence).
  assert (N : sm zero_c e = false) by (destruct (sm zero_c e) eqn:E; auto; apply gsame_ok, inj_one in E; subst; discriminate).
  exists (GBin BDiv (axnode BMul false i (inj c) (inj g0)) (GUn (UPow (n_two Rnum)) (inj c))). split.
  - rewrite (derive_big BDiv false i env w c e _ Hc He I). cbn [gbackax negb]. unfold axnode.
    rewrite axial_some by (auto; apply view_inj; auto). cbn [bind]. rewrite axial_zero by auto. cbn [mk_binary]. rewrite N, zero_view. cbn [rmap bind].
    assert (B : gbinary Rnum gsame BSub (GAx BMul false i (inj g0) (inj c)) (inj (EConst (const_scalar (n_zero Rnum)))) = Ok (GAx BMul false i (inj g0) (inj c))).
    { assert (X : gsame (GAx BMul false i (inj g0) (inj c)) (inj (EConst (const_scalar (n_zero Rnum)))) = false) by (destruct (gsame (GAx _ _ _ _ _) _) eqn:E; auto; apply gsame_ok in E; discriminate).
      unfold gbinary. rewrite group_inj. cbn [grouping ghelper]. rewrite X, GroupProofs.view_inj. change (EConst (const_scalar (n_zero Rnum))) with zero_c. rewrite zero_view. reflexivity. }
    rewrite B. cbn [bind]. cbn [gunary]. rewrite (proj1 two_not), (proj2 two_not). rewrite fold_inj.
    assert (Fe : fold_node Rnum (UPow (n_two Rnum)) c = EUn (UPow (n_two Rnum)) c) by (destruct c; try reflexivity; exfalso; eapply Cc; reflexivity).
    rewrite Fe. cbn [bind]. unfold gbinary. rewrite group_inj. cbn [grouping ghelper].
    destruct (gsame (GAx _ _ _ _ _) _) eqn:E; [apply gsame_ok in E; discriminate|]. reflexivity.
  - pose proof (axnode_value env BMul false i s (inj c) (inj g0) lc lt Hs Ec Lc V0 Lt') as Va.
    pose proof (small_fits i s lc Hs Lc) as F0. pose proof F0 as (F1 & _). cbn [fst] in F1.
    assert (U2 : gev env (GUn (UPow (n_two Rnum)) (inj c)) = Ok (axis_removed i s, map (const_lambda Rnum (UPow (n_two Rnum))) lc) \/ exists l, gev env (GUn (UPow (n_two Rnum)) (inj c)) = Ok (axis_removed i s, l)).
    { right. cbn [geval]. rewrite Ec. cbn [bind sem]. rewrite unary_ok by (eapply fits_wf; exact F0). cbn [fst snd]. unfold ushape. destruct (Nat.eqb_spec (n_elems (axis_removed i s)) 1) as [E|E]; [destruct Hs as (_ & _ & _ & H & _); lia|]. eexists. reflexivity. }
    assert (exists l, gev env (GUn (UPow (n_two Rnum)) (inj c)) = Ok (axis_removed i s, l)) as (l & U) by (destruct U2 as [U|U]; eauto).
    transitivity (ta <- gev env (axnode BMul false i (inj c) (inj g0)) ;; tb <- gev env (GUn (UPow (n_two Rnum)) (inj c)) ;; sem Rnum fresh use INR (KBin BDiv) [ta; tb]); [reflexivity|].
    rewrite Va, U. cbn [bind sem]. apply (C23_binary_incompatible_lemma R fresh); auto.
    + destruct Hs as (_ & _ & _ & H & _). lia.
    + intros Sl. apply (size_ne i s Hs). destruct Hs as (Fd' & _). now apply same_layout_n.
Qed.
End P.

(** Sum and difference of a large tensor (computed from w) and a small one spread along an axis:
    the gradient with respect to w is right, whichever argument is the large one. *)
Lemma C67_sum_lemma :
  forall fresh use gsame, (forall a b : @gexpr R, gsame a b = true -> a = b) ->
  forall (op : bop) (lft : bool) (i : nat) (s : shape) (env : nat -> tens R) (w : nat) (e c : expr) (lc : list R),
    op = BAdd \/ op = BSub -> spreadable i s -> proper s env w e -> has_leaf w c = false -> (forall t, c <> EConst t) ->
    geval Rnum fresh use INR env (inj c) = Ok (axis_removed i s, lc) -> length lc = n_elems (axis_removed i s) ->
    exists x g, gaxial Rnum gsame op lft i (if lft then inj c else inj e) (if lft then inj e else inj c) = Ok x /\
      gderive Rnum fresh use INR gsame env w x = Ok g /\ right fresh use s env w x (geval Rnum fresh use INR env g).
Proof. intros fresh use gsame H op lft i s env w e c lc. now apply addsub_big. Qed.

(** The product: the gradient is right if that of the large argument is not a constant node and
    has all elements. *)
Lemma C67_product_lemma :
  forall fresh use gsame, (forall a b : @gexpr R, gsame a b = true -> a = b) ->
  forall (lft : bool) (i : nat) (s : shape) (env : nat -> tens R) (w : nat) (e c : expr) (lc : list R) (ge : gexpr) (te : tens R),
    spreadable i s -> proper s env w e -> has_leaf w c = false -> (forall t, c <> EConst t) ->
    geval Rnum fresh use INR env (inj c) = Ok (axis_removed i s, lc) -> length lc = n_elems (axis_removed i s) ->
    gderive Rnum fresh use INR gsame env w (inj e) = Ok ge -> (forall t, ge <> GConst t) ->
    geval Rnum fresh use INR env ge = Ok te -> length (snd te) = n_elems s ->
    exists x g, gaxial Rnum gsame BMul lft i (if lft then inj c else inj e) (if lft then inj e else inj c) = Ok x /\
      gderive Rnum fresh use INR gsame env w x = Ok g /\ right fresh use s env w x (geval Rnum fresh use INR env g).
Proof. intros fresh use gsame H lft i s env w e c lc ge te. now apply mul_big. Qed.

(** The small tensor divided by the large one, where the latter is nonzero: right on the same
    condition. *)
Lemma C67_quotient_lemma :
  forall fresh use gsame, (forall a b : @gexpr R, gsame a b = true -> a = b) ->
  forall (i : nat) (s : shape) (env : nat -> tens R) (w : nat) (e c : expr) (lc : list R) (ge : gexpr) (te : tens R),
    spreadable i s -> proper s env w e -> has_leaf w c = false -> (forall t, c <> EConst t) ->
    geval Rnum fresh use INR env (inj c) = Ok (axis_removed i s, lc) -> length lc = n_elems (axis_removed i s) ->
    (forall j, (j < n_elems s)%nat -> den j (fun v => at_ (env v) j) e <> 0) ->
    gderive Rnum fresh use INR gsame env w (inj e) = Ok ge -> (forall t, ge <> GConst t) ->
    geval Rnum fresh use INR env ge = Ok te -> length (snd te) = n_elems s ->
    exists x g, gaxial Rnum gsame BDiv true i (inj c) (inj e) = Ok x /\
      gderive Rnum fresh use INR gsame env w x = Ok g /\ right fresh use s env w x (geval Rnum fresh use INR env g).
Proof. intros fresh use gsame H i s env w e c lc ge te. now apply div_big. Qed.

(** Finding: if the gradient of the large argument is the number v (as for the variable itself,
    where v is 1), derive gives v times the small tensor, of the small layout: not spread along
    the axis, so no gradient. *)
Lemma C67_product_refuted_lemma :
  forall fresh use gsame, (forall a b : @gexpr R, gsame a b = true -> a = b) ->
  forall (lft : bool) (i : nat) (s : shape) (env : nat -> tens R) (w : nat) (e c : expr) (lc : list R) (v : R),
    spreadable i s -> proper s env w e -> has_leaf w c = false -> (forall t, c <> EConst t) ->
    geval Rnum fresh use INR env (inj c) = Ok (axis_removed i s, lc) -> length lc = n_elems (axis_removed i s) ->
    v <> 0 -> v <> -1 -> gderive Rnum fresh use INR gsame env w (inj e) = Ok (GConst (const_scalar v)) ->
    exists x g, gaxial Rnum gsame BMul lft i (if lft then inj c else inj e) (if lft then inj e else inj c) = Ok x /\
      gderive Rnum fresh use INR gsame env w x = Ok g /\
      geval Rnum fresh use INR env g = Ok (axis_removed i s, map (Rmult v) lc) /\
      ~ right fresh use s env w x (geval Rnum fresh use INR env g).
Proof.
  intros fresh use gsame H lft i s env w e c lc v Hs P Hc Cc Ec Lc Hv Hm Dg.
  destruct (mul_const fresh use gsame H lft i s env w e c lc v Hs P Hc Cc Ec Lc Hv Hm Dg) as (g & G & V).
  exists (axnode BMul lft i (inj c) (inj e)), g. split; [apply (builds gsame H BMul lft i w); auto; apply P|]. split; [exact G|]. split; [exact V|].
  rewrite V. apply (small_wrong fresh use i s); auto. apply P.
Qed.

(** Finding: of the large tensor divided by the small one, derive builds a gradient whose
    evaluation throws: the square of the divisor is not spread along the axis. *)
Lemma C67_quotient_refuted_lemma :
  forall fresh use gsame, (forall a b : @gexpr R, gsame a b = true -> a = b) ->
  forall (i : nat) (s : shape) (env : nat -> tens R) (w : nat) (e c : expr) (lc : list R) (ge : gexpr) (te : tens R),
    spreadable i s -> proper s env w e -> has_leaf w c = false -> (forall t, c <> EConst t) ->
    geval Rnum fresh use INR env (inj c) = Ok (axis_removed i s, lc) -> length lc = n_elems (axis_removed i s) ->
    gderive Rnum fresh use INR gsame env w (inj e) = Ok ge -> (forall t, ge <> GConst t) ->
    geval Rnum fresh use INR env ge = Ok te -> length (snd te) = n_elems s ->
    exists x g, gaxial Rnum gsame BDiv false i (inj e) (inj c) = Ok x /\
      gderive Rnum fresh use INR gsame env w x = Ok g /\ geval Rnum fresh use INR env g = Throw.
Proof.
  intros fresh use gsame H i s env w e c lc ge te Hs P Hc Cc Ec Lc Dg Cg Vg Lg.
  destruct (quot_throws fresh use gsame H i s env w e c lc ge te Hs P Hc Cc Ec Lc Dg Cg Vg Lg) as (g & G & V).
  exists (axnode BDiv false i (inj c) (inj e)), g. split; [|auto]. apply (builds gsame H BDiv false i w); auto; apply P.
Qed.

(** A 2x3 tensor (extent 2 first): variable 0 large, variable 1 the two numbers spread along
    axis 1. exp of variable 0 meets the conditions of the first three theorems and of the last,
    variable 0 itself those of the fourth. *)
Lemma C67_nonvacuous_lemma :
  let s := [2; 3]%nat in let e := EUn UExp (EVar 0%nat) in let c := EVar 1%nat in
  let env := (fun v => match v with 0%nat => (s, [1; 2; 3; 4; 5; 6]) | _ => ([2]%nat, [7; 8]) end) : nat -> tens R in
  forall fresh use,
    spreadable 1 s /\ axis_removed 1 s = [2]%nat /\ proper s env 0%nat e /\ proper s env 0%nat (EVar 0%nat) /\ has_leaf 0%nat c = false /\
    geval Rnum fresh use INR env (inj c) = Ok (axis_removed 1 s, [7; 8]) /\
    (forall j, (j < n_elems s)%nat -> den j (fun v => at_ (env v) j) e <> 0) /\
    gderive Rnum fresh use INR (fun _ _ => false) env 0%nat (inj e) = Ok (GUn UExp (GVar 0%nat)) /\
    geval Rnum fresh use INR env (GUn UExp (GVar 0%nat)) = Ok (s, map exp [1; 2; 3; 4; 5; 6]) /\
    gderive Rnum fresh use INR (fun _ _ => false) env 0%nat (inj (EVar 0%nat)) = Ok (GConst (const_scalar 1)) /\
    map (below 1 s) (seq 0 6) = [0; 1; 0; 1; 0; 1]%nat.
Proof.
  intros s e c env fresh use.
  assert (Ft : fits s (env 0%nat)) by (split; [reflexivity|split; [reflexivity|now left]]).
  split; [repeat split; cbn; try lia; discriminate|]. split; [reflexivity|].
  split; [unfold proper; repeat split; try reflexivity; try discriminate; try exact Ft; cbn; auto|].
  split; [unfold proper; repeat split; try reflexivity; try discriminate; try exact Ft; cbn; auto|].
  split; [reflexivity|]. split; [reflexivity|].
  split; [intros j _; cbn; apply Rgt_not_eq, exp_pos|].
  split; [|split; [|split; reflexivity]].
  - unfold gderive, e. cbn [inj GroupModel.ginfo gleaf Nat.eqb fst snd ginherit gterminal bind].
    assert (E1 : n_eqb Rnum (n_one Rnum) (n_zero Rnum) = false) by (apply Reqb_no; cbn; lra).
    assert (E2 : n_eqb Rnum (n_zero Rnum) (n_one Rnum) = false) by (apply Reqb_no; cbn; lra).
    assert (E3 : n_eqb Rnum (n_one Rnum) (n_one Rnum) = true) by apply Reqb_yes.
    cbn [gback1 gunary gfold bind]. unfold gbinary. cbn [grouping ghelper gview const_scalar cview_of snd]. unfold const_is. cbn [snd const_scalar]. rewrite ?E1. change (one_elem (const_scalar (n_one Rnum))) with true. cbn [gunary]. rewrite ?E2, ?E3. reflexivity.
  - cbn [geval bind sem].
    assert (W : forall q, forward_pass fresh elementary_shaper (transform_fwd q) [env 0%nat] None = Ok (ushape s, map q [1; 2; 3; 4; 5; 6])) by (intros q; apply unary_ok; split; reflexivity).
    rewrite W. reflexivity.
Qed.
