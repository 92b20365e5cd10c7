(** C68: gradients through the axial operations with respect to the argument that is spread. *)
From Coq Require Import Reals Lra Lia.
From Verif Require Import Common ShapeModel ShapeSpec ShapeProofs TransformSpec TransformModel TransformProofs TransformLaws MatmulSpec MatmulModel ElemSpec ElemModel ElemProofs CseModel NumSpec RealNum ElemLaws GradModel GradSpec GradProofs GradLaws NetSpec NetProofs NetMlpProofs NetLaws GroupModel GroupProofs CoordSum ShapeGradSpec ShapeGradLaws SumGradLaws AxGradLaws.
Local Open Scope R_scope.
From Verif Require RbmTrainProofs.
From Verif Require ShapeLaws.

Section P.
Context (fresh : nat -> R) (use : bool) (gsame : @gexpr R -> @gexpr R -> bool).
Notation gev := (geval Rnum fresh use INR).
Notation gd := (gderive Rnum fresh use INR gsame).
Notation gi := (GroupModel.ginfo Rnum fresh use INR gsame).
Notation sm := (fun a b : expr => gsame (inj a) (inj b)).

(** the sum along the axis: each element is the sum of those it belongs to *)
Lemma line_sum env a i s l : spreadable i s -> gev env a = Ok (s, l) -> length l = n_elems s ->
  exists d, gev env (GSum (Some i) a) = Ok (axis_removed i s, d) /\ length d = n_elems (axis_removed i s) /\
    forall k, (k < n_elems (axis_removed i s))%nat -> nth k d 0 = sumR (fun j => if (below i s j =? k)%nat then nth j l 0 else 0) (n_elems s).
Proof.
  intros (Fd & L1 & Hi & Hs) E L. pose proof Fd as D. apply is_fully_defined_iff in D.
  assert (S1 : compress_shape i s = Ok (reduced i s)) by now apply compress_shape_reduced.
  assert (Fo : is_fully_defined (reduced i s) = true) by (apply is_fully_defined_iff; now apply reduced_defined).
  destruct (C18_compress_folds_axis_lemma R Rplus 0 s (reduced i s) i l (map fresh (seq 0 (n_elems (reduced i s)))) Fd Hi S1 L ltac:(now rewrite map_length, seq_length)) as (d & D1 & D2 & D3).
  rewrite axis_removed_reduced by exact L1. exists d. split; [|split; [exact D2|]].
  - assert (X : forward_pass fresh (shaper1 (compress_shape i)) (forward1 (compress_fwd (n_add Rnum) i)) [(s, l)] None = Ok (reduced i s, d)).
    { apply forward_fresh; [exact S1|exact Fo|]. cbn [map fst snd]. unfold forward1. cbn [rd nth_error bind]. exact D1. }
    etransitivity; [|exact X]. cbn [geval]. rewrite E. reflexivity.
  - intros k Hk. apply is_fully_defined_iff in Fo. rewrite n_elems_prod in Hk by apply Fo. rewrite reduced_prod in Hk by auto.
    rewrite n_elems_prod by apply D. rewrite sum_offset, (sumc_axis_self s i _ Hi).
    rewrite (sumc_ext _ _ (fun c => (fun m => (if (m =? k)%nat then nth k d 0 else 0)) (offset (set_nth i 1%nat s) c))).
    + rewrite <- (sum_offset (set_nth i 1%nat s) (fun m => if (m =? k)%nat then nth k d 0 else 0)). rewrite (sumR_ext _ (fun j => (fun _ => nth k d 0) j * (if (j =? k)%nat then 1 else 0))) by (intros j _; cbv beta; destruct (j =? k)%nat; ring).
      now rewrite (sumR_delta (fun _ => nth k d 0)).
    + intros c Hc. pose proof (in_axis s i c Hi Hc) as Lc.
      assert (Lcs : length c = length s) by (apply in_bounds_length in Hc; rewrite length_set_nth in Hc; exact Hc).
      assert (C0 : nth i c 0%nat = 0%nat).
      { pose proof (proj1 (in_bounds_nth _ _) Hc) as [_ Hb]. rewrite length_set_nth in Hb. specialize (Hb i Hi). rewrite nth_set_nth, Nat.eqb_refl in Hb. destruct (Nat.ltb_spec i (length s)); [|lia]. cbn in Hb. lia. }
      assert (Cc : set_nth i 0%nat c = c) by (rewrite <- C0 at 1; apply set_nth_self).
      assert (B : forall j, (j < nth i s 0)%nat -> below i s (offset s (set_nth i j c)) = offset (set_nth i 1%nat s) c).
      { intros j Hj. unfold below. rewrite coords_offset.
        - rewrite <- offset_remove by (rewrite ?length_set_nth; auto). now rewrite set_nth_set_nth, Cc.
        - pose proof (proj1 (in_bounds_nth _ _) Hc) as [_ Hb]. rewrite length_set_nth in Hb. apply in_bounds_nth. rewrite length_set_nth. split; [exact Lcs|]. intros z Hz. specialize (Hb z Hz). rewrite nth_set_nth in Hb. rewrite nth_set_nth, Lcs.
          destruct (Nat.eqb_spec i z) as [Ez|]; cbn [andb] in Hb |- *; [|exact Hb]. subst z. destruct (Nat.ltb_spec i (length s)); [exact Hj|lia]. }
      rewrite (sumR_ext _ (fun j => if (offset (set_nth i 1%nat s) c =? k)%nat then nth (offset s (set_nth i j c)) l 0 else 0)) by (intros j Hj; now rewrite B).
      destruct (Nat.eqb_spec (offset (set_nth i 1%nat s) c) k) as [<-|_]; [|now apply sumR_zero].
      pose proof (D3 c Hc) as X. rewrite (nth_error_nth _ _ 0 X), fold1_sum, sum_list. unfold along. rewrite map_length, seq_length.
      apply sumR_ext. intros j Hj. symmetry. rewrite (nth_indep _ 0 ((fun j => nth (offset s (set_nth i j c)) l 0) 0%nat)) by (now rewrite map_length, seq_length).
      rewrite (map_nth (fun j => nth (offset s (set_nth i j c)) l 0)), seq_nth by exact Hj. reflexivity.
Qed.

Context (gsame_ok : forall a b, gsame a b = true -> a = b).
Lemma small_deriv env w e c lc op lft i s : spreadable i s -> proper (axis_removed i s) env w e -> has_leaf w c = false ->
  gev env (inj c) = Ok (s, lc) -> length lc = n_elems s ->
  exists g t le, gi env w (inj e) = (Ok (inj g), None) /\ gd env w (inj e) = Ok (inj g) /\ gev env (inj g) = Ok t /\ fits (axis_removed i s) t /\
    gev env (inj e) = Ok (axis_removed i s, le) /\ length le = n_elems (axis_removed i s) /\
    forall D : nat -> R, (forall j, (j < n_elems s)%nat -> derivable_pt_lim (fun a => F op lft a (nth j lc 0)) (nth (below i s j) le 0) (D j)) ->
      forall k, (k < n_elems (axis_removed i s))%nat -> derivable_pt_lim (fun x => total (gev (set_elem env w k x) (axnode op lft i (inj e) (inj c)))) (at_ (env w) k)
        (sumR (fun j => if (below i s j =? k)%nat then D j * at_ t k else 0) (n_elems s)).
Proof.
  intros Hs P Hc Ec Lc. set (r := axis_removed i s) in *. destruct (base fresh use INR gsame gsame_ok r env w e P) as (g & t & I & Dg & V & Ft & Q & _).
  pose proof P as (Fd & N1 & Hl & Hw & Es & Ln & Hr).
  assert (Fw : fits r (env w)) by (split; [congruence|]; split; [congruence|now left]).
  pose proof (same_ok gsame gsame_ok) as Sok.
  destruct (C36_gradient_lemma fresh use _ Sok r env w e Fd Hl Fw Hr) as (g' & t' & E1 & E2 & _ & E4).
  assert (t' = t) as ->.
  { pose proof (derive_inj Rnum fresh use INR gsame env w e (leaves_axis w r env e Hl)) as X. rewrite Dg, E1 in X. cbn [rmap] in X. injection X as X. 
    assert (Y : gev env (inj g) = gev env (inj g')) by now rewrite X. rewrite !geval_inj, V, E2 in Y. congruence. }
  destruct (value_full fresh use r env w e Fd N1 Hl Hw Es Ln) as (le & El & Ll).
  exists g, t, le. split; [exact I|]. split; [exact Dg|]. split; [now rewrite geval_inj|]. split; [exact Ft|]. split; [now rewrite geval_inj|]. split; [exact Ll|].
  destruct (C36_value_lemma fresh use r env e Hl) as (t0 & T1 & _ & T3). rewrite El in T1. injection T1 as <-.
  assert (De : forall j, (j < n_elems r)%nat -> nth j le 0 = den j (fun v => at_ (env v) j) e).
  { intros j Hj. rewrite <- T3 by exact Hj. symmetry. exact (RbmTrainProofs.at_nth' (r, le) j _ Ll Hj). }
  intros D HD k Hk.
  apply (lim_ext (fun x => sumR (fun j => F op lft (elem (eval Rnum fresh use (set_elem env w k x) e) (below i s j)) (nth j lc 0)) (n_elems s))).
  { intros x. destruct (Q k x) as (l & X1 & X2). assert (Ec' : gev (set_elem env w k x) (inj c) = Ok (s, lc)) by (rewrite value_set by exact Hc; exact Ec).
    rewrite (axnode_value fresh use (set_elem env w k x) op lft i s (inj e) (inj c) l lc Hs X1 X2 Ec' Lc).
    rewrite total_map. apply sumR_ext. intros j Hj. rewrite geval_inj in X1. rewrite X1. cbn [elem]. f_equal. first [exact (RbmTrainProofs.at_nth' (r, l) _ _ X2 (below_lt i s j Hs Hj))|symmetry; exact (RbmTrainProofs.at_nth' (r, l) _ _ X2 (below_lt i s j Hs Hj))]. }
  apply (lim_sum _ (fun j => if (below i s j =? k)%nat then D j * at_ t k else 0)).
  intros j Hj. destruct (Nat.eqb_spec (below i s j) k) as [Ek|Hjk].
  - specialize (HD j Hj). rewrite Ek in *. pose proof (proj2 (E4 k Hk)) as X. assert (Y : elem (eval Rnum fresh use (set_elem env w k (at_ (env w) k)) e) k = nth k le 0).
    { destruct (C36_value_lemma fresh use r (set_elem env w k (at_ (env w) k)) e) as (u & U1 & _ & U3); [now apply set_elem_leaves|]. rewrite U1. cbn [elem].
      rewrite U3, De by exact Hk. apply den_ext. intros v. destruct (Nat.eq_dec v w) as [->|Hv]; [now apply (set_elem_at_self r)|now rewrite set_elem_other]. }
    apply (derivable_pt_lim_comp _ (fun a => F op lft a (nth j lc 0)) _ _ _ X). cbv beta. rewrite Y. exact HD.
  - apply (lim_ext (fct_cte (F op lft (elem (eval Rnum fresh use env e) (below i s j)) (nth j lc 0)))); [|apply derivable_pt_lim_const].
    intros x. unfold fct_cte. f_equal. symmetry. apply (C36_local_lemma fresh use r); auto; try congruence. now apply below_lt.
Qed.
Lemma derive_small op lft i env w c e g x : has_leaf w c = false -> has_leaf w e = true -> gi env w (inj e) = (Ok (inj g), None) ->
  gbackax Rnum gsame op lft i (if lft then inj e else inj c) (if lft then inj c else inj e) (inj (if lft then g else zero_c)) (inj (if lft then zero_c else g)) = Ok x ->
  gd env w (axnode op lft i (inj e) (inj c)) = Ok (GSum (Some i) x).
Proof.
  intros Hc He Ie. pose proof (info_zero fresh use gsame env w c Hc) as Ic. unfold gderive, gderive_of, axnode.
  destruct lft; cbn [GroupModel.ginfo]; rewrite Ie, Ic, !leaf_inj, Hc, He; cbn [fst snd ginherit gterminal gpush_front orb bind]; intros E; unfold zero_c in E; cbn [inj] in E; cbn [gj_term gj_list bind]; rewrite E; reflexivity.
Qed.
Lemma builds_small op lft i w c e : has_leaf w c = false -> has_leaf w e = true -> (forall t, c <> EConst t) ->
  gaxial Rnum gsame op lft i (if lft then inj e else inj c) (if lft then inj c else inj e) = Ok (axnode op lft i (inj e) (inj c)).
Proof.
  intros Hc He Cc. destruct (not_same gsame gsame_ok w c e Hc He) as [S1 S2]. unfold axnode. destruct lft; apply axial_some; auto using view_inj, (leaf_view w).
Qed.
(** the product of the gradient of the small argument (all elements, or a number) and the large one *)
Definition grad_shape (r : shape) (g : @expr R) (t : tens R) : Prop :=
  ((forall u, g <> EConst u) /\ length (snd t) = n_elems r) \/ (exists v, v <> 0 /\ v <> -1 /\ g = EConst (const_scalar v)).
Lemma back_product env i s (c : @expr R) lc g t lft : spreadable i s -> is_fully_defined s = true -> n_elems s <> 1%nat -> (forall t, c <> EConst t) ->
  gev env (inj c) = Ok (s, lc) -> length lc = n_elems s -> gev env (inj g) = Ok t -> fits (axis_removed i s) t -> grad_shape (axis_removed i s) g t ->
  exists x l, gaxial Rnum gsame BMul lft i (inj (if lft then g else c)) (inj (if lft then c else g)) = Ok x /\ grouping x = None /\ gview Rnum x = CNone /\
    gsame x (GUn (UPow (n_two Rnum)) (inj c)) = false /\
    gev env x = Ok (s, l) /\ length l = n_elems s /\ forall j, (j < n_elems s)%nat -> nth j l 0 = at_ t (below i s j) * nth j lc 0.
Proof.
  intros Hs Fs N1 Cc Ec Lc V Ft [[Cg Lt]|(v & Hv & Hm & ->)].
  - assert (Ne : g <> c).
    { intros ->. rewrite Ec in V. injection V as <-. cbn [snd] in Lt. pose proof (size_ne i s Hs). congruence. }
    destruct t as [r' lt]. destruct Ft as (F1 & F2 & F3). cbn [fst snd] in *. assert (r' = axis_removed i s) as -> by (destruct F3 as [->|F3]; [reflexivity|]; pose proof (small_ne i s Hs); congruence).
    assert (S : gsame (inj g) (inj c) = false /\ gsame (inj c) (inj g) = false).
    { split; [destruct (gsame (inj g) (inj c)) eqn:E|destruct (gsame (inj c) (inj g)) eqn:E]; auto; apply gsame_ok, inj_one in E; congruence. }
    pose proof (axnode_value fresh use env BMul lft i s (inj g) (inj c) lt lc Hs V Lt Ec Lc) as W.
    exists (axnode BMul lft i (inj g) (inj c)). eexists. split; [|split; [|split; [|split; [|split; [exact W|split]]]]].
    + unfold axnode. destruct lft; apply axial_some; try apply S; apply view_inj; auto.
    + reflexivity.
    + reflexivity.
    + unfold axnode. destruct (gsame (GAx _ _ _ _ _) _) eqn:E; [apply gsame_ok in E; discriminate|reflexivity].
    + now rewrite map_length, seq_length.
    + intros j Hj. pose proof (at_map_seq (fun j => F BMul lft (nth (below i s j) lt 0) (nth j lc 0)) s _ j Hj) as X.
      rewrite (RbmTrainProofs.at_nth' (s, _) j (n_elems s)) in X by (cbn [snd]; try (now rewrite map_length, seq_length); exact Hj). cbn [snd] in X. etransitivity; [exact X|].
      assert (Y : at_ (axis_removed i s, lt) (below i s j) = nth (below i s j) lt 0) by (exact (RbmTrainProofs.at_nth' (axis_removed i s, lt) _ _ Lt (below_lt i s j Hs Hj))).
      transitivity (nth (below i s j) lt 0 * nth j lc 0); [destruct lft; cbn; ring|]. f_equal. symmetry. exact Y.
  - assert (S1 : gsame (inj (EConst (const_scalar v))) (inj c) = false) by (destruct (gsame (inj (EConst (const_scalar v))) (inj c)) eqn:E; [apply gsame_ok, inj_one in E; exfalso; eapply Cc; symmetry; exact E|reflexivity]).
    assert (S2 : gsame (inj c) (inj (EConst (const_scalar v))) = false) by (destruct (gsame (inj c) (inj (EConst (const_scalar v)))) eqn:E; [apply gsame_ok, inj_one in E; exfalso; eapply Cc; exact E|reflexivity]).
    assert (Vv : gview Rnum (inj (EConst (const_scalar v))) = COne v).
    { cbn. assert (X : Reqb 0 v = false) by (apply Reqb_no; lra). now rewrite X. }
    injection V as <-.
    assert (B : exists y, gaxial Rnum gsame BMul lft i (inj (if lft then EConst (const_scalar v) else c)) (inj (if lft then c else EConst (const_scalar v))) = Ok (inj y) /\
        gev env (inj y) = Ok (s, map (Rmult v) lc) /\ (forall t, y <> EConst t) /\ (forall p, y <> EUn (UPow p) c)).
    { destruct lft; unfold gaxial; cbn [ghelper].
      - destruct (times_number fresh use s env c lc v (UMulL v) (or_introl eq_refl) Fs N1 Cc Ec Lc Hv Hm) as (y & Y1 & Y). exists y. split; [|exact Y]. rewrite S1, Vv. exact Y1.
      - destruct (times_number fresh use s env c lc v (UMulR v) (or_intror eq_refl) Fs N1 Cc Ec Lc Hv Hm) as (y & Y1 & Y). exists y. split; [|exact Y]. rewrite S2, (view_inj c Cc), Vv. exact Y1. }
    destruct B as (y & Y1 & Y2 & Y3 & Y4). exists (inj y), (map (Rmult v) lc).
    split; [exact Y1|]. split; [apply group_inj|]. split; [now apply view_inj|]. split; [|split; [exact Y2|split; [now rewrite map_length|]]].
    + destruct (gsame (inj y) _) eqn:E; auto. change (GUn (UPow (n_two Rnum)) (inj c)) with (inj (EUn (UPow (n_two Rnum)) c)) in E. apply gsame_ok, inj_one in E. now apply Y4 in E.
    + intros j Hj. rewrite (nth_indep _ 0 (v * 0)) by (rewrite map_length, Lc; exact Hj). rewrite (map_nth (Rmult v)). reflexivity.
Qed.

Lemma zero_times lft i w (e : @expr R) : has_leaf w e = true -> gaxial Rnum gsame BMul lft i (inj e) (inj zero_c) = Ok (inj zero_c) /\ gaxial Rnum gsame BMul lft i (inj zero_c) (inj e) = Ok (inj zero_c).
Proof.
  intros He.
  assert (N' : sm e zero_c = false /\ sm zero_c e = false).
  { split; [destruct (gsame (inj e) (inj zero_c)) eqn:E|destruct (gsame (inj zero_c) (inj e)) eqn:E]; auto; apply gsame_ok, inj_one in E; subst; discriminate. }
  pose proof (leaf_view w e He) as V. rewrite GroupProofs.view_inj in V.
  split; rewrite axial_zero by tauto; cbn [mk_binary]; [rewrite (proj1 N'), V, zero_view|rewrite (proj2 N'), zero_view]; reflexivity.
Qed.
Lemma plus_zero x : grouping x = None -> gview Rnum x = CNone -> gbinary Rnum gsame BAdd x (inj zero_c) = Ok x /\ gbinary Rnum gsame BAdd (inj zero_c) x = Ok x /\ gbinary Rnum gsame BSub x (inj zero_c) = Ok x.
Proof.
  intros G V. assert (S : gsame x (inj zero_c) = false).
  { destruct (gsame x (inj zero_c)) eqn:E; auto. apply gsame_ok in E. subst x. rewrite GroupProofs.view_inj, zero_view in V. discriminate. }
  unfold gbinary. rewrite G, group_inj. cbn [ghelper]. rewrite S, V, GroupProofs.view_inj, zero_view. auto.
Qed.
Lemma line_right i s env w node x l td tsum : spreadable i s -> gev env x = Ok (s, l) -> length l = n_elems s ->
  (forall k, (k < n_elems (axis_removed i s))%nat -> derivable_pt_lim (fun y => total (gev (set_elem env w k y) node)) (at_ (env w) k) (td k)) ->
  (forall k, (k < n_elems (axis_removed i s))%nat -> td k = sumR (fun j => if (below i s j =? k)%nat then tsum k j else 0) (n_elems s)) ->
  (forall k j, (j < n_elems s)%nat -> below i s j = k -> nth j l 0 = tsum k j) ->
  right fresh use (axis_removed i s) env w node (gev env (GSum (Some i) x)).
Proof.
  intros Hs E L HD Ht Hl. destruct (line_sum env x i s l Hs E L) as (d & D1 & D2 & D3). exists (axis_removed i s, d). split; [exact D1|].
  split; [now apply small_fits|]. intros k Hk. eapply lim_val; [|exact (HD k Hk)].
  pose proof (RbmTrainProofs.at_nth' (axis_removed i s, d) k _ D2 Hk) as Y. cbn [snd] in Y. etransitivity; [|symmetry; exact Y].
  rewrite (D3 k Hk), (Ht k Hk). apply sumR_ext. intros j Hj. destruct (Nat.eqb_spec (below i s j) k) as [B|]; [|reflexivity]. symmetry. now apply Hl.
Qed.
Lemma shape_facts i s : spreadable i s -> is_fully_defined s = true /\ n_elems s <> 1%nat.
Proof.
  intros Hs. split; [apply Hs|]. pose proof (sizes i s Hs) as Z. destruct Hs as (_ & _ & _ & H & _). intros E. rewrite E in Z. symmetry in Z; apply Nat.eq_mul_1 in Z; lia.
Qed.
Lemma mul_small lft i s env w e c lc g t : spreadable i s -> proper (axis_removed i s) env w e -> has_leaf w c = false -> (forall t, c <> EConst t) ->
  gev env (inj c) = Ok (s, lc) -> length lc = n_elems s ->
  gd env w (inj e) = Ok (inj g) -> gev env (inj g) = Ok t -> grad_shape (axis_removed i s) g t ->
  exists x g, gaxial Rnum gsame BMul lft i (if lft then inj e else inj c) (if lft then inj c else inj e) = Ok x /\ gd env w x = Ok g /\ right fresh use (axis_removed i s) env w x (gev env g).
Proof.
  intros Hs P Hc Cc Ec Lc Dg' V' Gs. pose proof P as (Fd & N1 & Hl & He & _). destruct (shape_facts i s Hs) as [Fs Ns].
  destruct (small_deriv env w e c lc BMul lft i s Hs P Hc Ec Lc) as (g0 & t' & le & I & Dg & V & Ft & El & Ll & Q).
  rewrite Dg in Dg'. injection Dg' as Dg'. apply inj_one in Dg'. subst g0. rewrite V in V'. injection V' as ->.
  destruct (back_product env i s c lc g t lft Hs Fs Ns Cc Ec Lc V Ft Gs) as (x & l & X1 & X2 & X3 & _ & X4 & X5 & X6).
  destruct (plus_zero x X2 X3) as (P1 & P2 & _).
  exists (axnode BMul lft i (inj e) (inj c)), (GSum (Some i) x). split; [now apply (builds_small BMul lft i w)|]. split.
  - apply (derive_small BMul lft i env w c e g x Hc He I). destruct lft; cbn [gbackax].
    + rewrite X1. cbn [bind]. rewrite (proj1 (zero_times true i w e He)). exact P1.
    + rewrite (proj2 (zero_times false i w e He)). cbn [bind]. rewrite X1. exact P2.
  - apply (line_right i s env w _ x l _ (fun k j => at_ t k * nth j lc 0) Hs X4 X5 (Q (fun j => nth j lc 0) ltac:(
      intros j Hj; set (C := nth j lc 0); apply (lim_ext (fun y => C * id y)); [intros y; unfold id; destruct lft; cbn; ring|]; eapply lim_val; [|apply derivable_pt_lim_scal, derivable_pt_lim_id]; ring))).
    + intros k Hk. apply sumR_ext. intros j Hj. destruct (below i s j =? k)%nat; ring.
    + intros k j Hj <-. now rewrite X6.
Qed.
Lemma div_small i s env w e c lc g t : spreadable i s -> proper (axis_removed i s) env w e -> has_leaf w c = false -> (forall t, c <> EConst t) ->
  gev env (inj c) = Ok (s, lc) -> length lc = n_elems s -> (forall j, (j < n_elems s)%nat -> nth j lc 0 <> 0) ->
  gd env w (inj e) = Ok (inj g) -> gev env (inj g) = Ok t -> grad_shape (axis_removed i s) g t ->
  exists x g, gaxial Rnum gsame BDiv true i (inj e) (inj c) = Ok x /\ gd env w x = Ok g /\ right fresh use (axis_removed i s) env w x (gev env g).
Proof.
  intros Hs P Hc Cc Ec Lc Hz Dg' V' Gs. pose proof P as (Fd & N1 & Hl & He & _). destruct (shape_facts i s Hs) as [Fs Ns].
  destruct (small_deriv env w e c lc BDiv true i s Hs P Hc Ec Lc) as (g0 & t' & le & I & Dg & V & Ft & El & Ll & Q).
  rewrite Dg in Dg'. injection Dg' as Dg'. apply inj_one in Dg'. subst g0. rewrite V in V'. injection V' as ->.
  destruct (back_product env i s c lc g t true Hs Fs Ns Cc Ec Lc V Ft Gs) as (x & l & X1 & X2 & X3 & Xs & X4 & X5 & X6).
  destruct (plus_zero x X2 X3) as (_ & _ & P3).
  set (d := GBin BDiv x (GUn (UPow (n_two Rnum)) (inj c))).
  exists (axnode BDiv true i (inj e) (inj c)), (GSum (Some i) d). split; [exact (builds_small BDiv true i w c e Hc He Cc)|].
  assert (Fc : fits s (s, lc)) by (split; [exact Fs|]; cbn [fst snd]; auto).
  assert (Fx : fits s (s, l)) by (split; [exact Fs|]; cbn [fst snd]; auto).
  destruct (un_g fresh use env (UPow (n_two Rnum)) _ s _ Ec Fc) as (u2 & U2 & F2 & H2).
  assert (exists l2, u2 = (s, l2) /\ length l2 = n_elems s) as (l2 & -> & L2).
  { cbn [geval] in U2. rewrite Ec in U2. cbn [bind sem] in U2. rewrite unary_ok in U2 by (eapply fits_wf; exact Fc). injection U2 as <-. cbn [fst snd].
    unfold ushape. destruct (Nat.eqb_spec (n_elems s) 1); [contradiction|]. eexists. split; [reflexivity|]. now rewrite map_length. }
  destruct (bin_gen fresh s (bop_lambda Rnum BDiv) (s, l) (s, l2) Fx F2) as (u & U & Fu & Lu & _ & Hu).
  specialize (Lu X5). assert (exists lu, u = (s, lu)) as (lu & ->).
  { destruct u as [su lu]. destruct Fu as (U1' & U2' & [U3'|U3']); cbn [fst snd] in *; [subst; eauto|congruence]. }
  assert (Vd : gev env d = Ok (s, lu)).
  { transitivity (ta <- gev env x ;; tb <- gev env (GUn (UPow (n_two Rnum)) (inj c)) ;; sem Rnum fresh use INR (KBin BDiv) [ta; tb]); [reflexivity|]. rewrite X4, U2. exact U. }
  split.
  - apply (derive_small BDiv true i env w c e g d Hc He I). cbn [gbackax negb]. rewrite X1. cbn [bind]. rewrite (proj2 (zero_times false i w e He)). cbn [bind]. rewrite P3. cbn [bind].
    cbn [gunary]. rewrite (proj1 two_not), (proj2 two_not). rewrite fold_inj.
    assert (Fe : fold_node Rnum (UPow (n_two Rnum)) c = EUn (UPow (n_two Rnum)) c) by (destruct c; try reflexivity; exfalso; eapply Cc; reflexivity).
    rewrite Fe. cbn [inj bind]. unfold gbinary. rewrite X2. cbn [grouping]. rewrite group_inj. cbn [ghelper]. rewrite Xs, X3. reflexivity.
  - apply (line_right i s env w _ d lu _ (fun k j => at_ t k * / nth j lc 0) Hs Vd Lu (Q (fun j => / nth j lc 0) ltac:(
      intros j Hj; set (C := / nth j lc 0); apply (lim_ext (fun y => C * id y)); [intros y; unfold id; cbn; unfold Rdiv; fold C; ring|]; eapply lim_val; [|apply derivable_pt_lim_scal, derivable_pt_lim_id]; ring))).
    + intros k Hk. apply sumR_ext. intros j Hj. destruct (below i s j =? k)%nat; ring.
    + intros k j Hj <-. specialize (Hu j Hj). pose proof (RbmTrainProofs.at_nth' (s, lu) j _ Lu Hj) as Y. cbn [snd] in Y. etransitivity; [symmetry; exact Y|]. etransitivity; [exact Hu|].
      pose proof (H2 j Hj) as Y2. pose proof (RbmTrainProofs.at_nth' (s, lc) j _ Lc Hj) as Y3. cbn [snd] in Y3.
      pose proof (RbmTrainProofs.at_nth' (s, l) j _ X5 Hj) as Y4. cbn [snd] in Y4.
      transitivity (nth j l 0 / Rpow (nth j lc 0) 2).
      { cbn. f_equal; [exact Y4|]. f_equal. etransitivity; [exact Y2|]. cbn. f_equal. exact Y3. }
      rewrite (Rpow_IZR _ 2 : Rpow (nth j lc 0) 2 = _). change (powerRZ (nth j lc 0) 2) with (nth j lc 0 ^ 2). rewrite X6 by exact Hj. field. now apply Hz.
Qed.

Lemma quot_small_throws i s env w e c lc g t : spreadable i s -> proper (axis_removed i s) env w e -> has_leaf w c = false -> (forall t, c <> EConst t) ->
  gev env (inj c) = Ok (s, lc) -> length lc = n_elems s ->
  gd env w (inj e) = Ok (inj g) -> gev env (inj g) = Ok t -> (forall u, g <> EConst u) -> length (snd t) = n_elems (axis_removed i s) ->
  exists x g, gaxial Rnum gsame BDiv false i (inj c) (inj e) = Ok x /\ gd env w x = Ok g /\ gev env g = Throw.
Proof.
  intros Hs P Hc Cc Ec Lc Dg' V' Cg Lt. pose proof P as (Fd & N1 & Hl & He & _). destruct (shape_facts i s Hs) as [Fs Ns].
  destruct (small_deriv env w e c lc BDiv true i s Hs P Hc Ec Lc) as (g0 & t' & le & I & Dg & V & Ft & El & Ll & _).
  rewrite Dg in Dg'. injection Dg' as Dg'. apply inj_one in Dg'. subst g0. rewrite V in V'. injection V' as ->.
  assert (Ne : g <> c).
  { intros ->. rewrite Ec in V. injection V as <-. cbn [snd] in Lt. pose proof (size_ne i s Hs). congruence. }
  assert (S : gsame (inj g) (inj c) = false) by (destruct (gsame (inj g) (inj c)) eqn:E; auto; apply gsame_ok, inj_one in E; congruence).
  destruct t as [r' lt]. destruct Ft as (F1 & F2 & F3). cbn [fst snd] in *. assert (r' = axis_removed i s) as -> by (destruct F3 as [->|F3]; [reflexivity|]; pose proof (small_ne i s Hs); congruence).
  pose proof (axnode_value fresh use env BMul true i s (inj g) (inj c) lt lc Hs V Lt Ec Lc) as W. unfold axnode in W.
  set (x := GAx BMul true i (inj g) (inj c)) in *. set (l := map _ _) in W.
  assert (Ll' : length l = n_elems s) by (unfold l; now rewrite map_length, seq_length).
  assert (Sx : gsame (inj zero_c) x = false).
  { destruct (gsame (inj zero_c) x) eqn:E; auto. apply gsame_ok in E. discriminate. }
  set (nx := GUn UNeg x).
  assert (N5 : exists ln, gev env nx = Ok (s, ln)).
  { unfold nx. cbn [geval]. rewrite W. cbn [bind sem]. rewrite unary_ok by (split; [exact Fs|exact Ll']). cbn [fst snd]. unfold ushape. destruct (Nat.eqb_spec (n_elems s) 1); [contradiction|]. eexists. reflexivity. }
  destruct N5 as (ln & N5).
  assert (D5 : exists ld, gev env (GUn (UPow (n_two Rnum)) (inj e)) = Ok (axis_removed i s, ld)).
  { cbn [geval]. rewrite El. cbn [bind sem]. rewrite unary_ok by (split; [exact Fd|exact Ll]). cbn [fst snd]. unfold ushape. destruct (Nat.eqb_spec (n_elems (axis_removed i s)) 1); [contradiction|]. eexists. reflexivity. }
  destruct D5 as (ld & D5).
  exists (axnode BDiv false i (inj e) (inj c)), (GSum (Some i) (GBin BDiv nx (GUn (UPow (n_two Rnum)) (inj e)))). split; [exact (builds_small BDiv false i w c e Hc He Cc)|]. split.
  - apply (derive_small BDiv false i env w c e g _ Hc He I). cbn [gbackax negb]. rewrite (proj2 (zero_times false i w e He)). cbn [bind].
    rewrite axial_some by (auto; apply view_inj; auto). cbn [bind]. fold x.
    assert (B : gbinary Rnum gsame BSub (inj zero_c) x = Ok nx).
    { unfold gbinary. rewrite group_inj. cbn [grouping ghelper x]. fold x. rewrite Sx, GroupProofs.view_inj, zero_view. reflexivity. }
    rewrite B. cbn [bind gunary]. rewrite (proj1 two_not), (proj2 two_not). rewrite fold_inj.
    assert (Fe : fold_node Rnum (UPow (n_two Rnum)) e = EUn (UPow (n_two Rnum)) e) by (destruct e; try reflexivity; discriminate).
    rewrite Fe. cbn [inj bind]. unfold gbinary. cbn [grouping nx x]. fold x. fold nx. rewrite group_inj. cbn [ghelper].
    destruct (gsame nx (GUn (UPow (n_two Rnum)) (inj e))) eqn:E; [apply gsame_ok in E; discriminate|]. reflexivity.
  - assert (T : gev env (GBin BDiv nx (GUn (UPow (n_two Rnum)) (inj e))) = Throw).
    { transitivity (ta <- gev env nx ;; tb <- gev env (GUn (UPow (n_two Rnum)) (inj e)) ;; sem Rnum fresh use INR (KBin BDiv) [ta; tb]); [reflexivity|].
      rewrite N5, D5. cbn [bind sem]. apply (C23_binary_incompatible_lemma R fresh); auto. intros Sl. apply (size_ne i s Hs). now apply same_layout_n. }
    transitivity (ta <- gev env (GBin BDiv nx (GUn (UPow (n_two Rnum)) (inj e))) ;; sem Rnum fresh use INR (KSum (Some i)) [ta]); [reflexivity|]. now rewrite T.
Qed.

(** sums and differences of the variable itself: what derive gives is the gradient of the
    variable, not multiplied by the number of its copies *)
Lemma addsub_small op lft i s env w c lc : op = BAdd \/ op = BSub -> spreadable i s -> proper (axis_removed i s) env w (EVar w) -> has_leaf w c = false -> (forall t, c <> EConst t) ->
  gev env (inj c) = Ok (s, lc) -> length lc = n_elems s ->
  let v := match op, lft with BSub, false => -1 | _, _ => 1 end in
  exists x g, gaxial Rnum gsame op lft i (if lft then inj (EVar w) else inj c) (if lft then inj c else inj (EVar w)) = Ok x /\ gd env w x = Ok g /\ gev env g = Ok ([1%nat], [v]) /\
    ~ right fresh use (axis_removed i s) env w x (gev env g).
Proof.
  intros Hop Hs P Hc Cc Ec Lc v. pose proof P as (Fd & N1 & Hl & He & _). destruct (shape_facts i s Hs) as [Fs Ns].
  destruct (small_deriv env w (EVar w) c lc op lft i s Hs P Hc Ec Lc) as (g & t & le & I & Dg & V & Ft & El & Ll & Q).
  assert (Gw : gi env w (inj (EVar w)) = (Ok (GConst (const_scalar 1)), None)) by (cbn; now rewrite Nat.eqb_refl).
  rewrite Gw in I. injection I as I'. assert (g = EConst (const_scalar 1)) as -> by (apply inj_one; now rewrite <- I'). clear I'.
  assert (I : gi env w (inj (EVar w)) = (Ok (inj (EConst (const_scalar 1))), None)) by exact Gw.
  injection V as <-.
  assert (E1 : n_eqb Rnum (n_zero Rnum) 1 = false) by (apply Reqb_no; cbn; lra). assert (E2 : n_eqb Rnum 1 (n_zero Rnum) = false) by (apply Reqb_no; cbn; lra).
  assert (E3 : n_eqb Rnum (n_zero Rnum) (n_zero Rnum) = true) by apply Reqb_yes.
  assert (S1 : gsame (GConst (const_scalar 1)) (GConst (const_scalar (n_zero Rnum))) = false).
  { destruct (gsame (GConst (const_scalar 1)) (GConst (const_scalar (n_zero Rnum)))) eqn:E; auto. apply gsame_ok in E. injection E as E. cbn in E. lra. }
  assert (S2 : gsame (GConst (const_scalar (n_zero Rnum))) (GConst (const_scalar 1)) = false).
  { destruct (gsame (GConst (const_scalar (n_zero Rnum))) (GConst (const_scalar 1))) eqn:E; auto. apply gsame_ok in E. injection E as E. cbn in E. lra. }
  assert (V1 : gview Rnum (GConst (const_scalar 1)) = COne 1) by (cbn; assert (X : Reqb 0 1 = false) by exact E1; now rewrite X).
  assert (V0 : gview Rnum (GConst (const_scalar (n_zero Rnum))) = CZero) by (cbn; assert (X : Reqb 0 0 = true) by exact E3; now rewrite X).
  assert (B : gbackax Rnum gsame op lft i (if lft then inj (EVar w) else inj c) (if lft then inj c else inj (EVar w)) (inj (if lft then EConst (const_scalar 1) else zero_c)) (inj (if lft then zero_c else EConst (const_scalar 1))) = Ok (GConst (const_scalar v))).
  { unfold zero_c, v. destruct Hop; subst op; destruct lft; cbn [gbackax inj]; unfold gaxial; cbn [ghelper]; rewrite ?S1, ?S2, ?V1, ?V0; cbn [gunary]; unfold const_is; cbn [snd const_scalar]; rewrite ?E1, ?E2, ?E3; try reflexivity. }
  exists (axnode op lft i (inj (EVar w)) (inj c)), (GSum (Some i) (GConst (const_scalar v))). split; [now apply (builds_small op lft i w)|].
  split; [exact (derive_small op lft i env w c (EVar w) _ _ Hc He I B)|].
  assert (W : gev env (GSum (Some i) (GConst (const_scalar v))) = Ok ([1%nat], [v])).
  { destruct (sum_full fresh use INR env (GConst (const_scalar v)) [1%nat] [v] i eq_refl eq_refl eq_refl) as (d & D1 & D2 & D3).
    assert (sum_shape i [1%nat] = [1%nat]) as Sh by (unfold sum_shape; destruct i as [|i]; reflexivity). rewrite Sh in *. rewrite D1. destruct d as [|y [|]]; cbn in D2; try discriminate. cbn in D3. replace y with v by lra. reflexivity. }
  split; [exact W|]. rewrite W. intros (t & Et & _ & Ht). injection Et as <-.
  pose proof (small_ne i s Hs) as Nr. 
  assert (X : sumR (fun k => sumR (fun j => if (below i s j =? k)%nat then v * 1 else 0) (n_elems s)) (n_elems (axis_removed i s)) = sumR (fun _ => v) (n_elems (axis_removed i s))).
  { apply sumR_ext. intros k Hk. eapply uniqueness_limite; [|exact (Ht k Hk)]. eapply lim_val; [|apply (Q (fun _ => v)); [intros j Hj|exact Hk]].
    - apply sumR_ext. intros j _. reflexivity.
    - unfold v. set (C := nth j lc 0). destruct Hop; subst op; destruct lft; cbn.
      + eapply lim_val; [|apply (derivable_pt_lim_plus id (fct_cte C)); [apply derivable_pt_lim_id|apply derivable_pt_lim_const]]; ring.
      + eapply lim_val; [|apply (derivable_pt_lim_plus (fct_cte C) id); [apply derivable_pt_lim_const|apply derivable_pt_lim_id]]; ring.
      + eapply lim_val; [|apply (derivable_pt_lim_minus id (fct_cte C)); [apply derivable_pt_lim_id|apply derivable_pt_lim_const]]; ring.
      + eapply lim_val; [|apply (derivable_pt_lim_minus (fct_cte C) id); [apply derivable_pt_lim_const|apply derivable_pt_lim_id]]; ring. }
  rewrite sumR_swap in X.
  rewrite (sumR_ext _ (fun _ => v)) in X.
  2:{ intros j Hj. rewrite (sumR_ext _ (fun k => (fun _ => v) k * (if (k =? below i s j)%nat then 1 else 0))) by (intros k _; rewrite (Nat.eqb_sym k); destruct (_ =? _)%nat; ring). exact (sumR_delta (fun _ => v) _ _ (below_lt i s j Hs Hj)). }
  assert (Cs : forall n, sumR (fun _ => v) n = INR n * v) by (induction n as [|n IHn]; [cbn; ring|]; rewrite S_INR; cbn [sumn]; rewrite IHn; ring).
  rewrite !Cs in X. apply (size_ne i s Hs). apply INR_eq. apply (Rmult_eq_reg_r v); [exact X|]. unfold v. destruct Hop; subst op; destruct lft; lra.
Qed.
End P.

(** a gradient with all the elements of the shape r that is no constant node, or a number
    other than 0 and -1 *)
Definition spread_grad (r : shape) (g : @gexpr R) (t : tens R) : Prop :=
  ((forall u, g <> GConst u) /\ length (snd t) = n_elems r) \/ (exists v, v <> 0 /\ v <> -1 /\ g = GConst (const_scalar v)).
Lemma spread_grad_inj r (g : @expr R) t : spread_grad r (inj g) t -> grad_shape r g t.
Proof.
  intros [[H L]|(v & H1 & H2 & E)]; [left|right].
  - split; [|exact L]. intros u ->. exact (H u eq_refl).
  - exists v. split; [exact H1|]. split; [exact H2|]. now apply inj_one.
Qed.
Lemma grad_is_inj fresh use gsame : (forall a b : @gexpr R, gsame a b = true -> a = b) -> forall s env w e g, proper s env w e ->
  gderive Rnum fresh use INR gsame env w (inj e) = Ok g -> exists g', g = inj g'.
Proof. intros H s env w e g P D. destruct (base fresh use INR gsame H s env w e P) as (g' & t & _ & D' & _). exists g'. congruence. Qed.

(** The small argument, an expression of elementwise operations, is spread along axis i of the
    large one, which does not depend on the variable. The gradient of the product with respect
    to a variable in the small argument is right, whichever argument is the small one: the
    products summed along the axis. *)
Lemma C68_product_lemma :
  forall fresh use gsame, (forall a b : @gexpr R, gsame a b = true -> a = b) ->
  forall (lft : bool) (i : nat) (s : shape) (env : nat -> tens R) (w : nat) (e c : expr) (lc : list R) (ge : gexpr) (te : tens R),
    spreadable i s -> proper (axis_removed i s) env w e -> has_leaf w c = false -> (forall t, c <> EConst t) ->
    geval Rnum fresh use INR env (inj c) = Ok (s, lc) -> length lc = n_elems s ->
    gderive Rnum fresh use INR gsame env w (inj e) = Ok ge -> geval Rnum fresh use INR env ge = Ok te -> spread_grad (axis_removed i s) ge te ->
    exists x g, gaxial Rnum gsame BMul lft i (if lft then inj e else inj c) (if lft then inj c else inj e) = Ok x /\
      gderive Rnum fresh use INR gsame env w x = Ok g /\ right fresh use (axis_removed i s) env w x (geval Rnum fresh use INR env g).
Proof.
  intros fresh use gsame H lft i s env w e c lc ge te Hs P Hc Cc Ec Lc Dg Vg Gs. destruct (grad_is_inj fresh use gsame H _ env w e ge P Dg) as (g' & ->).
  apply (mul_small fresh use gsame H lft i s env w e c lc g' te); auto. now apply spread_grad_inj.
Qed.

(** Likewise the small tensor divided by the large one, if that is nonzero everywhere. *)
Lemma C68_quotient_lemma :
  forall fresh use gsame, (forall a b : @gexpr R, gsame a b = true -> a = b) ->
  forall (i : nat) (s : shape) (env : nat -> tens R) (w : nat) (e c : expr) (lc : list R) (ge : gexpr) (te : tens R),
    spreadable i s -> proper (axis_removed i s) env w e -> has_leaf w c = false -> (forall t, c <> EConst t) ->
    geval Rnum fresh use INR env (inj c) = Ok (s, lc) -> length lc = n_elems s -> (forall j, (j < n_elems s)%nat -> nth j lc 0 <> 0) ->
    gderive Rnum fresh use INR gsame env w (inj e) = Ok ge -> geval Rnum fresh use INR env ge = Ok te -> spread_grad (axis_removed i s) ge te ->
    exists x g, gaxial Rnum gsame BDiv true i (inj e) (inj c) = Ok x /\
      gderive Rnum fresh use INR gsame env w x = Ok g /\ right fresh use (axis_removed i s) env w x (geval Rnum fresh use INR env g).
Proof.
  intros fresh use gsame H i s env w e c lc ge te Hs P Hc Cc Ec Lc Hz Dg Vg Gs. destruct (grad_is_inj fresh use gsame H _ env w e ge P Dg) as (g' & ->).
  apply (div_small fresh use gsame H i s env w e c lc g' te); auto. now apply spread_grad_inj.
Qed.

(** Finding: for sums and differences of the variable itself with a large tensor, derive gives
    the single number 1 (-1 for large - small): it sums the gradient before spreading it, so
    the number of copies is lost, and the result is no gradient. *)
Lemma C68_sum_refuted_lemma :
  forall fresh use gsame, (forall a b : @gexpr R, gsame a b = true -> a = b) ->
  forall (op : bop) (lft : bool) (i : nat) (s : shape) (env : nat -> tens R) (w : nat) (c : expr) (lc : list R),
    op = BAdd \/ op = BSub -> spreadable i s -> proper (axis_removed i s) env w (EVar w) -> has_leaf w c = false -> (forall t, c <> EConst t) ->
    geval Rnum fresh use INR env (inj c) = Ok (s, lc) -> length lc = n_elems s ->
    exists x g, gaxial Rnum gsame op lft i (if lft then GVar w else inj c) (if lft then inj c else GVar w) = Ok x /\
      gderive Rnum fresh use INR gsame env w x = Ok g /\
      geval Rnum fresh use INR env g = Ok ([1%nat], [match op, lft with BSub, false => -1 | _, _ => 1 end]) /\
      ~ right fresh use (axis_removed i s) env w x (geval Rnum fresh use INR env g).
Proof. intros fresh use gsame H op lft i s env w c lc Hop Hs P Hc Cc Ec Lc. exact (addsub_small fresh use gsame H op lft i s env w c lc Hop Hs P Hc Cc Ec Lc). Qed.

(** Finding: for the large tensor divided by the small one, the gradient's evaluation throws. *)
Lemma C68_quotient_refuted_lemma :
  forall fresh use gsame, (forall a b : @gexpr R, gsame a b = true -> a = b) ->
  forall (i : nat) (s : shape) (env : nat -> tens R) (w : nat) (e c : expr) (lc : list R) (ge : gexpr) (te : tens R),
    spreadable i s -> proper (axis_removed i s) env w e -> has_leaf w c = false -> (forall t, c <> EConst t) ->
    geval Rnum fresh use INR env (inj c) = Ok (s, lc) -> length lc = n_elems s ->
    gderive Rnum fresh use INR gsame env w (inj e) = Ok ge -> geval Rnum fresh use INR env ge = Ok te ->
    (forall u, ge <> GConst u) -> length (snd te) = n_elems (axis_removed i s) ->
    exists x g, gaxial Rnum gsame BDiv false i (inj c) (inj e) = Ok x /\
      gderive Rnum fresh use INR gsame env w x = Ok g /\ geval Rnum fresh use INR env g = Throw.
Proof.
  intros fresh use gsame H i s env w e c lc ge te Hs P Hc Cc Ec Lc Dg Vg Cg Lg. destruct (grad_is_inj fresh use gsame H _ env w e ge P Dg) as (g' & ->).
  apply (quot_small_throws fresh use gsame H i s env w e c lc g' te); auto. intros u ->. exact (Cg u eq_refl).
Qed.

(** A 2x3 tensor (extent 2 first), variable 0, and two numbers, variable 1, spread along axis 1:
    variable 1 and its exponential meet the conditions. *)
Lemma C68_nonvacuous_lemma :
  let s := [2; 3]%nat in let e := EUn UExp (EVar 1%nat) in let c := EVar 0%nat in
  let env := (fun v => match v with 0%nat => (s, [1; 2; 3; 4; 5; 6]) | _ => ([2]%nat, [7; 8]) end) : nat -> tens R in
  forall fresh use,
    spreadable 1 s /\ axis_removed 1 s = [2]%nat /\ proper [2]%nat env 1%nat e /\ proper [2]%nat env 1%nat (EVar 1%nat) /\ has_leaf 1%nat c = false /\
    geval Rnum fresh use INR env (inj c) = Ok (s, [1; 2; 3; 4; 5; 6]) /\
    (forall j, (j < 6)%nat -> nth j [1; 2; 3; 4; 5; 6] 0 <> 0) /\
    gderive Rnum fresh use INR (fun _ _ => false) env 1%nat (inj e) = Ok (GUn UExp (GVar 1%nat)) /\
    geval Rnum fresh use INR env (GUn UExp (GVar 1%nat)) = Ok ([2]%nat, map exp [7; 8]) /\
    gderive Rnum fresh use INR (fun _ _ => false) env 1%nat (inj (EVar 1%nat)) = Ok (GConst (const_scalar 1)) /\
    map (below 1 s) (seq 0 6) = [0; 1; 0; 1; 0; 1]%nat.
Proof.
  intros s e c env fresh use.
  assert (Ft : fits [2]%nat (env 1%nat)) by (split; [reflexivity|split; [reflexivity|now left]]).
  split; [repeat split; cbn; try lia; discriminate|]. split; [reflexivity|].
  split; [unfold proper; repeat split; try reflexivity; try discriminate; try exact Ft; cbn; auto|].
  split; [unfold proper; repeat split; try reflexivity; try discriminate; try exact Ft; cbn; auto|].
  split; [reflexivity|]. split; [reflexivity|].
  split; [intros j Hj; do 6 (destruct j as [|j]; [cbn; lra|]); lia|].
  split; [|split; [|split; reflexivity]].
  - unfold gderive, e. cbn [inj GroupModel.ginfo gleaf Nat.eqb fst snd ginherit gterminal bind].
    assert (E1 : n_eqb Rnum (n_one Rnum) (n_zero Rnum) = false) by (apply Reqb_no; cbn; lra).
    assert (E2 : n_eqb Rnum (n_zero Rnum) (n_one Rnum) = false) by (apply Reqb_no; cbn; lra).
    assert (E3 : n_eqb Rnum (n_one Rnum) (n_one Rnum) = true) by apply Reqb_yes.
    cbn [gback1 gunary gfold bind]. unfold gbinary. cbn [grouping ghelper gview const_scalar cview_of snd]. unfold const_is. cbn [snd const_scalar]. rewrite ?E1. change (one_elem (const_scalar (n_one Rnum))) with true. cbn [gunary]. rewrite ?E2, ?E3. reflexivity.
  - cbn [geval bind sem].
    assert (W : forall q, forward_pass fresh elementary_shaper (transform_fwd q) [env 1%nat] None = Ok (ushape [2]%nat, map q [7; 8])) by (intros q; apply unary_ok; split; reflexivity).
    rewrite W. reflexivity.
Qed.
