(** Gradients of the difference of two mean energies. *)
From Coq Require Import String Reals Lra Lia.
From Verif Require Import Common CseModel CseSpec ShapeModel ShapeSpec ShapeProofs TransformSpec TransformModel TransformProofs TransformLaws FitModel FitProofs MatmulSpec MatmulModel MatmulProofs Matmul2Proofs MatmulLaws ElemSpec ElemModel ElemProofs NumSpec RealNum ElemLaws GradModel GradSpec GradProofs MatrixSpec MatrixProofs LeafModel LeafProofs LeafLaws MlpSpec MlpModel MlpProofs MlpLaws MeanLaws RbmSpec RbmModel RbmLaws GroupModel GroupProofs RbmTrainModel RbmCalc RbmTrainProofs RbmTrainValues.
From Verif Require NetProofs NetLaws CrossCorrProofs.
Local Open Scope list_scope.

Lemma inj_inj (a b : @expr R) : inj a = inj b -> a = b.
Proof. revert b. induction a; intros []; cbn [inj]; intros H; try discriminate; injection H; intros; subst; try reflexivity; f_equal; auto. Qed.

Section Cost.
Context (fresh : nat -> R) (use : bool) (gsame : @gexpr R -> @gexpr R -> bool).
Context (gs : forall a b, gsame a b = true -> a = b).
Context (w hb vb : nat) (Nwh : w <> hb) (Nwv : w <> vb) (Nhv : hb <> vb) (n h : nat).
Notation gev := (geval Rnum fresh use INR).
Notation ev := (eval Rnum fresh use).
Notation nM := (nM w hb vb).
Notation ginf env := (ginfo Rnum fresh use INR gsame env).
Notation der env v := (gderive Rnum fresh use INR gsame env v).

Lemma fe_neq e1 e2 : e1 <> e2 -> inj (fe_node w hb vb e1) <> inj (fe_node w hb vb e2).
Proof. intros H E. apply inj_inj in E. unfold fe_node in E. injection E as E _. contradiction. Qed.
Lemma mean_neq e1 e2 : e1 <> e2 -> nM e1 <> nM e2.
Proof. intros H E. apply (f_equal (fun g => match g with GBin _ (GSum _ x) _ => x | _ => g end)) in E. now apply (fe_neq e1 e2). Qed.
Lemma cost_build (m : rbm) e1 e2 : r_w m = Some w -> r_hb m = Some hb -> r_vb m = Some vb -> e1 <> e2 ->
  rbm_cost Rnum gsame m e1 e2 = Ok (GBin BSub (nM e1) (nM e2)).
Proof.
  intros R1 R2 R3 Hn. unfold rbm_cost. rewrite !(fe_build _ m w hb vb) by auto. cbn [bind]. rewrite !(mean_build gsame gs). cbn [bind].
  unfold gbinary. cbn [grouping ghelper RbmTrainProofs.nM]. rewrite (gdiff gsame gs) by now apply mean_neq. reflexivity.
Qed.
Lemma der_cost env v a c X1 X2 u1 u2 l1 l2 D1 D2 :
  ginf env v a = (Ok X1, Some (mkGJ u1 l1 false)) -> ginf env v c = (Ok X2, Some (mkGJ u2 l2 false)) -> l1 <> [] -> l2 <> [] -> u1 <> u2 ->
  der env v a = Ok D1 -> der env v c = Ok D2 -> gleaf v a = true ->
  gview Rnum D1 = CNone -> gview Rnum D2 = CNone -> grouping D1 = None -> grouping D2 = None -> D1 <> D2 ->
  der env v (GBin BSub a c) = Ok (GBin BSub D1 D2).
Proof.
  intros I1 I2 L1 L2 Nu E1 E2 G V1 V2 P1 P2 Nd. unfold gderive in *. cbn [GroupModel.ginfo]. rewrite I1, I2 in *. rewrite G. cbn [orb snd fst].
  destruct l1 as [|en1 l1]; [contradiction|]. destruct l2 as [|en2 l2]; [contradiction|]. cbn [ginherit gj_list gj_uid]. rewrite (gdiff gsame gs) by congruence. cbn [gterminal gj_term].
  rewrite E1, E2. cbn [bind gback2]. unfold gbinary. rewrite P1, P2. cbn [ghelper]. rewrite (gdiff gsame gs) by auto. rewrite V1, V2. reflexivity.
Qed.

Lemma vec_sub env a c ta tc k : gev env a = Ok ta -> vector k ta -> gev env c = Ok tc -> vector k tc ->
  exists u, gev env (GBin BSub a c) = Ok u /\ vector k u /\ forall i, i < k -> nth i (snd u) 0%R = (nth i (snd ta) 0 - nth i (snd tc) 0)%R.
Proof.
  intros Ea (Hk & Sa & La) Ec (_ & Sc & Lc). assert (Nk : n_elems [k] = k) by (cbn; lia).
  destruct (binary_ok fresh (bop_lambda Rnum BSub) ta tc) as [H _].
  { split; [rewrite Sa; cbn; destruct k; [lia|reflexivity]|rewrite Sa, Nk; lia]. } { split; [rewrite Sc; cbn; destruct k; [lia|reflexivity]|rewrite Sc, Nk; lia]. }
  eexists. split; [|split].
  - cbn [geval]. rewrite Ea, Ec. cbn [bind]. cbn [sem]. rewrite H by (right; right; rewrite Sa, Sc; now left). reflexivity.
  - rewrite Sa, Sc. assert (Bs : bshape [k] [k] = [k]). { unfold bshape, ushape. rewrite Nk. destruct (Nat.eqb_spec k 1) as [->|]; reflexivity. }
    rewrite Bs. split; [exact Hk|]. split; [reflexivity|]. cbn [snd]. rewrite Nk, map2_length, !broadcast_id by auto. lia.
  - intros i Hi. cbn [snd]. rewrite Sa, Sc. assert (Bs : n_elems (bshape [k] [k]) = k). { unfold bshape. destruct (_ =? _); [rewrite ushape_n|]; exact Nk. }
    rewrite Bs, !broadcast_id by auto. erewrite nth_error_nth; [|apply (map2_nth_error _ _ _ _ 0%R 0%R); lia]. reflexivity.
Qed.

Lemma factor_values env b e : NetLaws.factor fresh use env n b e ->
  exists t, ev env e = Ok t /\ matrix n b t /\ exists t', ev env (mk_tr e) = Ok t' /\ matrix b n t' /\ forall x y, x < b -> y < n -> entry 0%R b t' x y = entry 0%R n t y x.
Proof.
  intros F. destruct (NetLaws.factor_tr fresh use (fun _ _ => false) ltac:(discriminate) env n b e F) as [(M1 & M2 & H) _].
  destruct M1 as (t & T1 & T2). destruct M2 as (t' & T1' & T2'). exists t. split; [exact T1|]. split; [exact T2|]. exists t'. split; [exact T1'|]. split; [exact T2'|].
  intros x y Hx Hy. specialize (H x y Hx Hy). unfold nval in H. rewrite T1, T1' in H. cbn [elem] in H. rewrite (NetProofs.at_entry b n t'), (NetProofs.at_entry n b t) in H by auto. exact H.
Qed.

Section Main.
Context (env : nat -> tens R) (Mw : matrix h n (env w)) (Mh : vector h (env hb)) (Mv : vector n (env vb)).
Context (b1 b2 : nat) (e1 e2 : @expr R) (t1 t2 : tens R) (Ne : e1 <> e2).
Context (E1 : ev env e1 = Ok t1) (M1 : matrix n b1 t1) (E2 : ev env e2 = Ok t2) (M2 : matrix n b2 t2).
Context (T1 : exists t', ev env (mk_tr e1) = Ok t' /\ matrix b1 n t' /\ forall x y, x < b1 -> y < n -> entry 0%R b1 t' x y = entry 0%R n t1 y x).
Context (T2 : exists t', ev env (mk_tr e2) = Ok t' /\ matrix b2 n t' /\ forall x y, x < b2 -> y < n -> entry 0%R b2 t' x y = entry 0%R n t2 y x).
Context (F1 : forall v, In v [w; hb; vb] -> has_leaf v e1 = false) (F2 : forall v, In v [w; hb; vb] -> has_leaf v e2 = false).
Notation Wf env := (entry 0%R h (env w)).
Notation Hf env := (fun j => nth j (snd (env hb)) 0%R).
Notation Vf env := (fun q => nth q (snd (env vb)) 0%R).
Notation s1 y := (fun q => entry 0%R n t1 q y).
Notation s2 y := (fun q => entry 0%R n t2 q y).
Notation A1 := (fun j y => act n (Wf env) (Hf env) (s1 y) j).
Notation A2 := (fun j y => act n (Wf env) (Hf env) (s2 y) j).
Notation cost := (GBin BSub (nM e1) (nM e2)).

Lemma S_neq : nS w hb vb e1 <> nS w hb vb e2.
Proof. intros E. apply (f_equal (fun g => match g with GSize _ x => x | _ => g end)) in E. now apply (fe_neq e1 e2). Qed.
Lemma nR_neq X Y : nR gsame w hb vb X e1 <> nR gsame w hb vb Y e2.
Proof. intros E. apply (f_equal (fun g => match g with GBin _ (GAx _ _ _ _ x) _ => x | _ => g end)) in E. now apply S_neq. Qed.
Lemma nRV_neq : nRV gsame w hb vb e1 <> nRV gsame w hb vb e2.
Proof. intros E. apply (f_equal (fun g => match g with GBin _ (GBin _ _ x) _ => x | _ => g end)) in E. now apply S_neq. Qed.
Lemma leaf_nM v e : In v [w; hb; vb] -> gleaf v (nM e) = true.
Proof.
  intros H. change (gleaf v (nM e)) with (gleaf v (inj (fe_node w hb vb e)) || gleaf v (inj (fe_node w hb vb e))). rewrite leaf_inj. unfold fe_node. cbn [has_leaf].
  destruct H as [<-|[<-|[<-|[]]]]; rewrite Nat.eqb_refl, ?Bool.orb_true_r; cbn [orb]; rewrite ?Bool.orb_true_r; reflexivity.
Qed.

Lemma main_W : exists Y y, der env w cost = Ok Y /\ match Y with GConst _ => False | GUn _ _ => False | _ => True end /\ gev env Y = Ok y /\ matrix h n y /\
  forall x q, x < h -> q < n -> entry 0%R h y x q = (mean b1 (fun k => - (s1 k q * logistic (A1 x k))) - mean b2 (fun k => - (s2 k q * logistic (A2 x k))))%R.
Proof.
  assert (Iw : In w [w; hb; vb]) by (left; reflexivity).
  destruct (grad_W fresh use gsame gs w hb vb Nwh Nwv Nhv n h env Mw Mh Mv b1 e1 t1 E1 M1 T1 (F1 w Iw)) as (Y1 & y1 & D1 & Q1 & V1 & P1 & G1).
  destruct (grad_W fresh use gsame gs w hb vb Nwh Nwv Nhv n h env Mw Mh Mv b2 e2 t2 E2 M2 T2 (F2 w Iw)) as (Y2 & y2 & D2 & Q2 & V2 & P2 & G2).
  destruct (g_bin fresh use env BSub Y1 Y2 h n y1 y2 (conj V1 P1) (conj V2 P2)) as (y & [Z1 Z2] & Z3).
  exists (GBin BSub Y1 Y2), y. split; [|split; [exact I|split; [exact Z1|split; [exact Z2|]]]].
  - assert (Hl : forall e, has_leaf w (nL w hb e) = true) by (intros e; cbn [has_leaf nL nP nE nA nMM]; rewrite Nat.eqb_refl, Bool.orb_true_r; reflexivity).
    refine (der_cost env w _ _ _ _ _ _ _ _ Y1 Y2 (info_M fresh use gsame gs env w hb vb w e1 _ _ _ (F1 w Iw) (Hl e1) Nwv (info_W fresh use gsame gs env w hb Nwh e1 (F1 w Iw)) _)
      (info_M fresh use gsame gs env w hb vb w e2 _ _ _ (F2 w Iw) (Hl e2) Nwv (info_W fresh use gsame gs env w hb Nwh e2 (F2 w Iw)) _) _ _ _ D1 D2 (leaf_nM w e1 Iw) _ _ _ _ _);
      try discriminate; try (rewrite Q1; reflexivity); try (rewrite Q2; reflexivity).
    + intros E. apply inj_inj in E. unfold nMM in E. congruence.
    + rewrite Q1, Q2. intros E. apply (f_equal (fun g => match g with GMat _ _ _ x => x | _ => g end)) in E. now apply nR_neq in E.
  - intros x q Hx Hq. rewrite Z3, G1, G2 by auto. reflexivity.
Qed.
Lemma main_H : exists Y y, der env hb cost = Ok Y /\ match Y with GConst _ => False | GUn _ _ => False | _ => True end /\ gev env Y = Ok y /\ vector h y /\
  forall x, x < h -> nth x (snd y) 0%R = (mean b1 (fun k => - logistic (A1 x k)) - mean b2 (fun k => - logistic (A2 x k)))%R.
Proof.
  assert (Iw : In hb [w; hb; vb]) by (right; left; reflexivity).
  destruct (grad_H fresh use gsame gs w hb vb Nwh Nwv Nhv n h env Mw Mh Mv b1 e1 t1 E1 M1 (F1 hb Iw)) as (Y1 & y1 & D1 & Q1 & V1 & P1 & G1).
  destruct (grad_H fresh use gsame gs w hb vb Nwh Nwv Nhv n h env Mw Mh Mv b2 e2 t2 E2 M2 (F2 hb Iw)) as (Y2 & y2 & D2 & Q2 & V2 & P2 & G2).
  destruct (vec_sub env Y1 Y2 y1 y2 h V1 P1 V2 P2) as (y & Z1 & Z2 & Z3).
  exists (GBin BSub Y1 Y2), y. split; [|split; [exact I|split; [exact Z1|split; [exact Z2|]]]].
  - assert (Hl : forall e, has_leaf hb (nL w hb e) = true) by (intros e; cbn [has_leaf nL nP nE nA nMM]; rewrite Nat.eqb_refl, Bool.orb_true_r; reflexivity).
    refine (der_cost env hb _ _ _ _ _ _ _ _ Y1 Y2 (info_M fresh use gsame gs env w hb vb hb e1 _ _ _ (F1 hb Iw) (Hl e1) Nhv (info_H fresh use gsame gs env w hb Nwh e1 (F1 hb Iw)) _)
      (info_M fresh use gsame gs env w hb vb hb e2 _ _ _ (F2 hb Iw) (Hl e2) Nhv (info_H fresh use gsame gs env w hb Nwh e2 (F2 hb Iw)) _) _ _ _ D1 D2 (leaf_nM hb e1 Iw) _ _ _ _ _);
      try discriminate; try (rewrite Q1; reflexivity); try (rewrite Q2; reflexivity).
    + intros E. apply inj_inj in E. unfold nA, nMM in E. congruence.
    + rewrite Q1, Q2. intros E. apply (f_equal (fun g => match g with GSum _ x => x | _ => g end)) in E. now apply nR_neq in E.
  - intros x Hx. rewrite Z3, G1, G2 by auto. reflexivity.
Qed.
Lemma main_V : exists Y y, der env vb cost = Ok Y /\ match Y with GConst _ => False | GUn _ _ => False | _ => True end /\ gev env Y = Ok y /\ matrix n 1 y /\
  forall q, q < n -> entry 0%R n y q 0 = (mean b1 (fun k => - s1 k q) - mean b2 (fun k => - s2 k q))%R.
Proof.
  assert (Iw : In vb [w; hb; vb]) by (right; right; left; reflexivity).
  destruct (grad_V fresh use gsame gs w hb vb Nwh Nwv Nhv n h env Mw Mh Mv b1 e1 t1 E1 M1 T1 (F1 vb Iw)) as (Y1 & y1 & D1 & Q1 & V1 & P1 & G1).
  destruct (grad_V fresh use gsame gs w hb vb Nwh Nwv Nhv n h env Mw Mh Mv b2 e2 t2 E2 M2 T2 (F2 vb Iw)) as (Y2 & y2 & D2 & Q2 & V2 & P2 & G2).
  destruct (g_bin fresh use env BSub Y1 Y2 n 1 y1 y2 (conj V1 P1) (conj V2 P2)) as (y & [Z1 Z2] & Z3).
  exists (GBin BSub Y1 Y2), y. split; [|split; [exact I|split; [exact Z1|split; [exact Z2|]]]].
  - refine (der_cost env vb _ _ _ _ _ _ _ _ Y1 Y2 (info_MV fresh use gsame gs env w hb vb Nwv Nhv e1 (F1 vb Iw))
      (info_MV fresh use gsame gs env w hb vb Nwv Nhv e2 (F2 vb Iw)) _ _ _ D1 D2 (leaf_nM vb e1 Iw) _ _ _ _ _);
      try discriminate; try (rewrite Q1; reflexivity); try (rewrite Q2; reflexivity).
    + intros E. apply inj_inj in E. unfold nV in E. congruence.
    + rewrite Q1, Q2. intros E. apply (f_equal (fun g => match g with GBin _ (GTr (GMat _ _ _ x)) _ => x | _ => g end)) in E. now apply nRV_neq in E.
  - intros q Hq. rewrite Z3, G1, G2 by (auto; lia). reflexivity.
Qed.
End Main.
End Cost.
