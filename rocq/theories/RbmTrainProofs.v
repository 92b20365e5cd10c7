(** Gradients of the rbm's cost. *)
From Coq Require Import String Reals Lra Lia.
From Verif Require Import Common CseModel CseSpec ShapeModel ShapeSpec ShapeProofs TransformSpec TransformModel TransformProofs TransformLaws FitModel FitProofs MatmulSpec MatmulModel ElemSpec ElemModel ElemProofs NumSpec RealNum ElemLaws GradModel GradSpec GradProofs MatrixSpec MatrixProofs LeafModel LeafProofs LeafLaws MlpSpec MlpModel MlpProofs MlpLaws MeanLaws RbmSpec RbmModel RbmLaws GroupModel GroupProofs RbmTrainModel.
From Verif Require NetProofs NetLaws CrossCorrProofs.
Local Open Scope list_scope.

Lemma at_nth' (u : tens R) k c : length (snd u) = c -> k < c -> GradSpec.at_ u k = nth k (snd u) 0%R.
Proof. intros L Hk. unfold GradSpec.at_. destruct (snd u) as [|x [|y l]] eqn:E; try reflexivity. cbn in L. assert (k = 0) by lia. now subst. Qed.

Section Val.
Context (fresh : nat -> R) (use : bool) (env : nat -> tens R).
Notation gev := (geval Rnum fresh use INR env).
Notation ev := (eval Rnum fresh use env).
Notation mat e c r t := (gev e = Ok t /\ matrix c r t).

Lemma R_ring' : use = true -> exists opp, ring_theory (n_zero Rnum) (n_one Rnum) (n_add Rnum) (n_mul Rnum) (n_sub Rnum) opp eq.
Proof. intros _. exists Ropp. exact RTheory. Qed.

Lemma g_un op a c r t : mat a c r t -> exists u, mat (GUn op a) c r u /\ forall x y, x < c -> y < r -> entry 0%R c u x y = meaning Rnum op (entry 0%R c t x y).
Proof.
  intros [E M]. destruct (mat_un Rnum fresh c r (fwd_lambda Rnum op) t M) as (u & U1 & U2 & U3). exists u. split; [split; [|exact U2]|].
  - cbn [geval]. rewrite E. exact U1.
  - intros x y Hx Hy. change 0%R with (n_zero Rnum). rewrite U3 by auto. apply fwd_lambda_meaning.
Qed.
Lemma g_grp ax a c r t : mat a c r t -> exists u, mat (GGrp ax a) c r u /\ forall x y, x < c -> y < r -> entry 0%R c u x y = entry 0%R c t x y.
Proof.
  intros [E M]. destruct (mat_un Rnum fresh c r (fun x => x) t M) as (u & U1 & U2 & U3). exists u. split; [split; [|exact U2]|].
  - cbn [geval]. rewrite E. exact U1.
  - intros x y Hx Hy. change 0%R with (n_zero Rnum). now rewrite U3.
Qed.
Lemma g_bin op a b c r ta tb : mat a c r ta -> mat b c r tb ->
  exists u, mat (GBin op a b) c r u /\ forall x y, x < c -> y < r -> entry 0%R c u x y = bmeaning Rnum op (entry 0%R c ta x y) (entry 0%R c tb x y).
Proof.
  intros [Ea Ma] [Eb Mb]. destruct (mat_bin Rnum fresh c r (bop_lambda Rnum op) ta tb Ma Mb) as (u & U1 & U2 & U3). exists u. split; [split; [|exact U2]|].
  - cbn [geval]. rewrite Ea, Eb. exact U1.
  - intros x y Hx Hy. change 0%R with (n_zero Rnum). rewrite U3 by auto. destruct op; reflexivity.
Qed.
Lemma g_mat tA tB a b c r z ta tb : mat a z r ta -> mat b c z tb ->
  exists u, mat (GMat tA tB a b) c r u /\ fst u = [c; r] /\ forall x y, x < c -> y < r -> entry 0%R c u x y = Sum (fun q => (entry 0 z ta q y * entry 0 c tb x q)%R) z.
Proof.
  intros [Ea Ma] [Eb Mb]. destruct (mat_mul Rnum fresh use R_ring' c r z ta tb Ma Mb) as (u & U1 & U0 & U2 & U3). exists u. split; [split; [|exact U2]|split; [exact U0|]].
  - cbn [geval]. rewrite Ea, Eb. exact U1.
  - intros x y Hx Hy. change 0%R with (n_zero Rnum). now rewrite U3.
Qed.
Lemma g_trn a c r t : mat a c r t -> exists u, mat (GTr a) r c u /\ forall x y, x < r -> y < c -> entry 0%R r u x y = entry 0%R c t y x.
Proof.
  intros [E M]. destruct (mat_tr Rnum fresh c r t M) as (u & U1 & U2 & U3). exists u. split; [split; [|exact U2]|].
  - cbn [geval]. rewrite E. exact U1.
  - intros x y Hx Hy. change 0%R with (n_zero Rnum). now rewrite U3.
Qed.
Lemma g_ones a c r t : mat a c r t -> exists u, mat (GEq a a) c r u /\ forall x y, x < c -> y < r -> entry 0%R c u x y = 1%R.
Proof.
  intros [E M]. destruct (mat_bin Rnum fresh c r (fun x y => if n_eqb Rnum x y then n_one Rnum else n_zero Rnum) t t M M) as (u & U1 & U2 & U3). exists u. split; [split; [|exact U2]|].
  - cbn [geval]. rewrite E. exact U1.
  - intros x y Hx Hy. change 0%R with (n_zero Rnum). rewrite U3 by auto. replace (n_eqb Rnum _ _) with true; [reflexivity|]. symmetry. now apply Reqb_iff.
Qed.
(** a one-element second argument *)
Lemma g_scal op a b c r ta s v : mat a c r ta -> gev b = Ok (s, [v]) -> full (s, [v]) -> n_elems s = 1 ->
  exists u, mat (GBin op a b) c r u /\ forall x y, x < c -> y < r -> entry 0%R c u x y = bmeaning Rnum op (entry 0%R c ta x y) v.
Proof.
  intros [Ea Ma] Eb Fb Nb. pose proof (matrix_def _ _ _ Ma) as Fa. pose proof (matrix_n _ _ _ Ma) as Na. pose proof Ma as (Hc & Hr & La & Sa).
  destruct (binary_ok fresh (bop_lambda Rnum op) ta (s, [v])) as [H _]; [split; [exact Fa|lia]|exact Fb|]. cbn [fst snd] in *.
  assert (En : n_elems (bshape (fst ta) s) = c * r).
  { unfold bshape. rewrite Nb. cbn [Nat.eqb]. rewrite ushape_n. exact Na. }
  eexists. split; [split|].
  - cbn [geval]. rewrite Ea, Eb. cbn [bind]. cbn [sem]. rewrite H by auto. reflexivity.
  - rewrite En. split; [exact Hc|]. split; [exact Hr|]. split.
    + cbn [snd]. rewrite map2_length, broadcast_id by congruence. unfold broadcast. cbn. rewrite repeat_length. lia.
    + cbn [fst]. unfold bshape, ushape. rewrite Nb, Na. cbn [Nat.eqb]. destruct (Nat.eqb_spec (c * r) 1); [now right|exact Sa].
  - intros x y Hx Hy. unfold entry. cbn [snd]. rewrite En. rewrite broadcast_id by congruence. assert (Hk : x + c * y < c * r) by nia.
    erewrite nth_error_nth; [|apply (map2_nth_error _ _ _ _ 0%R 0%R); [lia|unfold broadcast; cbn; rewrite repeat_length; lia]].
    replace (nth (x + c * y) (broadcast (c * r) [v]) 0%R) with v; [destruct op; reflexivity|].
    unfold broadcast. cbn. clear -Hk. revert Hk. generalize (x + c * y) (c * r). intros k n. revert k. induction n as [|n IH]; intros k Hk; [lia|]. destruct k; cbn; [reflexivity|]. apply IH. lia.
Qed.
Lemma g_axscal op axis a b c r ta v : mat a c r ta -> gev b = Ok ([1], [v]) ->
  exists u, mat (GAx op false axis a b) c r u /\ forall x y, x < c -> y < r -> entry 0%R c u x y = bmeaning Rnum op (entry 0%R c ta x y) v.
Proof.
  intros [Ea Ma] Eb. pose proof (matrix_def _ _ _ Ma) as Fa. pose proof (matrix_n _ _ _ Ma) as Na. pose proof Ma as (Hc & Hr & La & Sa).
  assert (L : forall (d : list R), length d = c * r -> exists o, for_ (c * r) (fun i d => x <- rd [v] 0 ;; y <- rd (snd ta) i ;; wr d i (bop_lambda Rnum op y x)) d = Ok o /\ length o = c * r /\
    forall i, i < c * r -> nth i o 0%R = bop_lambda Rnum op (nth i (snd ta) 0%R) v).
  { intros d Hd. 
    destruct (for_inv (fun k o => length o = c * r /\ forall i, i < k -> nth i o 0%R = bop_lambda Rnum op (nth i (snd ta) 0%R) v) (fun i d => x <- rd [v] 0 ;; y <- rd (snd ta) i ;; wr d i (bop_lambda Rnum op y x)) (c * r) d) as (o & O1 & O2 & O3).
    - split; [exact Hd|lia].
    - intros i o Hi (Lo & Ho). cbn [rd nth_error bind]. rewrite (CrossCorrProofs.nth_rd (snd ta) i 0%R) by lia. cbn [bind]. rewrite wr_ok by lia. eexists. split; [reflexivity|]. split; [now rewrite length_set_nth|].
      intros j Hj. destruct (Nat.eq_dec j i) as [->|Nj]; [apply CrossCorrProofs.nth_set_same; lia|]. rewrite CrossCorrProofs.nth_set_other by auto. apply Ho. lia.
    - eauto. }
  destruct (L (map fresh (seq 0 (n_elems (fst ta))))) as (o & O1 & O2 & O3); [now rewrite map_length, seq_length|].
  exists (fst ta, o). split; [split|].
  - cbn [geval]. rewrite Ea, Eb. cbn [bind]. cbn [sem]. apply forward_fresh.
    + cbn [map fst]. unfold binary_axial_shape. cbn [rd nth_error bind]. reflexivity.
    + exact Fa.
    + cbn [map fst snd]. unfold binary_axial. cbn [length Nat.eqb assert_ bind rd nth_error]. change (1 =? n_elems [1]) with true. cbn iota. rewrite Na in O1 |- *. exact O1.
  - repeat split; auto.
  - intros x y Hx Hy. unfold entry. cbn [snd]. rewrite O3 by nia. destruct op; reflexivity.
Qed.
Lemma g_size a t b : gev a = Ok t -> n_elems (fst t) = b -> gev (GSize None a) = Ok ([1], [INR b]).
Proof. intros E Nb. cbn [geval]. rewrite E. cbn [bind]. destruct t as [s d]. rewrite size_all. cbn [fst] in Nb. now rewrite Nb. Qed.
Lemma g_sum1 a c r t : mat a c r t -> exists u, gev (GSum (Some 1) a) = Ok u /\ vector c u /\ forall k, k < c -> nth k (snd u) 0%R = Sum (fun y => entry 0%R c t k y) r.
Proof.
  intros [E M]. destruct (NetProofs.sumax_node fresh use (fun _ => t) 1 ltac:(lia) c r (EVar 0) t eq_refl M) as (u & U1 & U2 & U3). exists u. split; [|split; [exact U2|]].
  - cbn [geval]. rewrite E. exact U1.
  - intros k Hk. specialize (U3 k Hk). rewrite <- (at_nth' u k c); auto. 2: apply U2. rewrite U3. apply sumn_ext. intros y Hy. now apply (NetProofs.at_entry c r).
Qed.
End Val.

Section Der.
Context (fresh : nat -> R) (use : bool) (gsame : @gexpr R -> @gexpr R -> bool).
Context (gs : forall a b, gsame a b = true -> a = b).
Context (env : nat -> tens R) (w hb vb : nat) (Nwh : w <> hb) (Nwv : w <> vb) (Nhv : hb <> vb).
Notation same := (fun a b : @expr R => gsame (inj a) (inj b)).
Notation inf := (info Rnum fresh use same env).
Notation ginf := (ginfo Rnum fresh use INR gsame env).
Notation zero_node := (EConst (ElemModel.const_scalar 0%R) : @expr R).
Notation one_node := (EConst (ElemModel.const_scalar 1%R) : @expr R).

Definition nMM (e : @expr R) := EMat false false e (EVar w).
Definition nA (e : @expr R) := EAxB 1 (nMM e) (EVar hb).
Definition nE (e : @expr R) := EUn UExp (nA e).
Definition nP (e : @expr R) := EUn (UAddL 1%R) (nE e).
Definition nL (e : @expr R) := EUn ULog (nP e).
Definition nV (e : @expr R) := EMat false true e (ETr (EVar vb)).
Definition nS (e : @expr R) : @gexpr R := GSize None (inj (fe_node w hb vb e)).
Definition nM (e : @expr R) : @gexpr R := GBin BDiv (GSum None (inj (fe_node w hb vb e))) (nS e).
Definition nD (e : @expr R) : @gexpr R := if gsame (nS e) (nS e) then GUn (UPow 2%R) (nS e) else GBin BMul (nS e) (nS e).

Lemma gdiff a b : a <> b -> gsame a b = false.
Proof. intros H. destruct (gsame a b) eqn:E; [|reflexivity]. apply gs in E. contradiction. Qed.
Lemma mean_build e : gmean Rnum gsame None (inj (fe_node w hb vb e)) = Ok (nM e).
Proof. unfold gmean, gbinary. cbn [grouping ghelper gview]. rewrite gdiff by discriminate. reflexivity. Qed.

Lemma const_eq x y : const_is Rnum (ElemModel.const_scalar x) y = Reqb y x.
Proof. reflexivity. Qed.
Lemma Req_t x : Reqb x x = true.
Proof. now apply Reqb_iff. Qed.
Lemma Req_f x y : x <> y -> Reqb x y = false.
Proof. intros H. destruct (Reqb x y) eqn:E; [|reflexivity]. apply Reqb_iff in E. contradiction. Qed.
Lemma view0 : cview_of Rnum zero_node = CZero.
Proof. cbn [cview_of]. rewrite const_eq. cbn [n_zero Rnum]. now rewrite Req_t. Qed.
Lemma view1 : cview_of Rnum one_node = COne 1%R.
Proof. cbn [cview_of]. rewrite const_eq. cbn [n_zero Rnum]. now rewrite Req_f by lra. Qed.

(** the part below the reduction, for the weights *)
Definition xW (e : @expr R) := EBin BDiv (EBin BMul (EEq (nMM e) (nMM e)) (nE e)) (nP e).
Lemma info_W e : has_leaf w e = false ->
  inf w (nL e) = (Ok (xW e), Some (mkJ (nMM e) [JMat false false e (EVar w) (Ok zero_node) (Ok one_node)] false)).
Proof.
  intros He. unfold nL, nP, nE, nA, nMM at 1. cbn [info has_leaf]. rewrite (NetProofs.free_info fresh use same env w e He). rewrite He, Nat.eqb_refl. cbn [orb].
  assert (Nb : (hb =? w) = false) by (apply Nat.eqb_neq; congruence). rewrite Nb. cbn [snd fst inherit push_back j_list j_uid terminal j_term bind].
  change (if false then n_one Rnum else n_zero Rnum) with 0%R. change (n_zero Rnum) with 0%R. change (n_one Rnum) with 1%R.
  unfold mk_axb. change (cview_of Rnum (EEq (EMat false false e (EVar w)) (EMat false false e (EVar w)))) with (@CNone R). cbn iota. rewrite view0. cbn [bind].
  cbn [back_unary mk_unary fold_node bind mk_binary cview_of].
  rewrite gdiff by discriminate. cbn [bind]. rewrite gdiff by discriminate. reflexivity.
Qed.
(** for the hidden biases *)
Definition xH (e : @expr R) := EBin BDiv (nE e) (nP e).
Lemma info_H e : has_leaf hb e = false ->
  inf hb (nL e) = (Ok (xH e), Some (mkJ (nA e) [JSumAx 1] false)).
Proof.
  intros He. unfold nL, nP, nE, nA, nMM at 1. cbn [info has_leaf]. rewrite (NetProofs.free_info fresh use same env hb e He). rewrite He, Nat.eqb_refl. cbn [orb].
  assert (Nb : (w =? hb) = false) by (apply Nat.eqb_neq; congruence). rewrite Nb. cbn [snd fst inherit push_front j_list j_uid terminal j_term bind orb].
  change (n_zero Rnum) with 0%R. change (n_one Rnum) with 1%R.
  unfold mk_axb. rewrite view0. cbn [bind]. cbn [back_unary mk_unary fold_node bind mk_binary].
  rewrite gdiff by discriminate. rewrite view1. cbn [bind mk_unary]. change (n_zero Rnum) with 0%R. change (n_one Rnum) with 1%R. rewrite Req_f by lra. rewrite Req_t. cbn [bind cview_of].
  rewrite gdiff by discriminate. reflexivity.
Qed.

Lemma free_na v (e : @expr R) : has_leaf v e = false -> no_axis_sum v e.
Proof. induction e; cbn; auto; intros H; apply Bool.orb_false_iff in H; destruct H; auto. Qed.
Lemma free_g v (e : @expr R) : has_leaf v e = false -> ginf v (inj e) = (Ok (GConst (ElemModel.const_scalar 0%R)), None).
Proof. intros H. rewrite (info_inj Rnum fresh use INR gsame env v e (free_na v e H)). now rewrite (NetProofs.free_info fresh use same env v e H). Qed.

Notation gz := (GConst (ElemModel.const_scalar 0%R) : @gexpr R).
Notation go := (GConst (ElemModel.const_scalar 1%R) : @gexpr R).
Lemma gview0 : gview Rnum gz = CZero.
Proof. exact view0. Qed.
Lemma gview1 : gview Rnum go = COne 1%R.
Proof. exact view1. Qed.

Lemma sub0 a : gview Rnum a = CNone -> a <> gz -> gbinary Rnum gsame BSub a gz = Ok a.
Proof. intros V Na. unfold gbinary. cbn [ghelper]. rewrite gdiff, V, gview0 by auto. reflexivity. Qed.
Lemma add0r a : gview Rnum a = CNone -> gbinary Rnum gsame BAdd a gz = Ok a.
Proof. intros V. unfold gbinary. cbn [ghelper]. rewrite V, gview0 by auto. reflexivity. Qed.
Lemma add0l a : gbinary Rnum gsame BAdd gz a = Ok a.
Proof. unfold gbinary. cbn [ghelper]. rewrite gview0. reflexivity. Qed.
Lemma mul0l a : a <> gz -> gbinary Rnum gsame BMul gz a = Ok gz.
Proof. intros Na. unfold gbinary. cbn [ghelper]. rewrite gdiff, gview0 by auto. reflexivity. Qed.
Lemma mul0r a : gview Rnum a = CNone -> a <> gz -> gbinary Rnum gsame BMul a gz = Ok gz.
Proof. intros V Na. unfold gbinary. cbn [ghelper]. rewrite gdiff, V, gview0 by auto. reflexivity. Qed.
Lemma mul1r a : gview Rnum a = CNone -> (match a with GConst _ => False | _ => True end) -> gbinary Rnum gsame BMul a go = Ok a.
Proof.
  intros V Na. unfold gbinary. cbn [ghelper]. rewrite gdiff, V, gview1 by (intros ->; contradiction). cbn [gunary]. change (n_zero Rnum) with 0%R. change (n_one Rnum) with 1%R.
  rewrite Req_f by lra. rewrite Req_t. destruct a; try reflexivity. contradiction.
Qed.
(** the gradient of the mean, for a variable below the reduction *)
Definition nR (X : @gexpr R) (e : @expr R) : @gexpr R := GBin BDiv (GAx BMul false 0 (GUn UNeg (GGrp 0 X)) (nS e)) (nD e).
Lemma fe_inj e : inj (fe_node w hb vb e) = GUn UNeg (GBin BAdd (GSum (Some 0) (inj (nL e))) (inj (nV e))).
Proof. reflexivity. Qed.
Lemma sq_build S : gview Rnum S = CNone -> grouping S = None -> (match S with GConst _ => False | _ => True end) ->
  gbinary Rnum gsame BMul S S = Ok (if gsame S S then GUn (UPow 2%R) S else GBin BMul S S).
Proof.
  intros H G C. unfold gbinary. rewrite G. cbn [ghelper]. rewrite H. destruct (gsame S S); [|reflexivity].
  cbn [gunary]. change (n_zero Rnum) with 0%R. change (n_one Rnum) with 1%R. change (n_two Rnum) with 2%R. rewrite !Req_f by lra. destruct S; try reflexivity. contradiction.
Qed.
(** one step of get_gradient when the argument has a Jacobian list *)
Lemma gi_un v op a g u en l : gleaf v a = true -> ginf v a = (Ok g, Some (mkGJ u (en :: l) false)) ->
  ginf v (GUn op a) = (gback1 Rnum gsame op a g, Some (mkGJ u (en :: l) false)).
Proof. intros L H. cbn [GroupModel.ginfo]. rewrite H, L. reflexivity. Qed.
Lemma gi_sum v ax a g u en l : gleaf v a = true -> ginf v a = (Ok g, Some (mkGJ u (en :: l) false)) ->
  ginf v (GSum ax a) = (Ok (match ax with Some i => GGrp i g | None => g end), Some (mkGJ u (en :: l) false)).
Proof. intros L H. cbn [GroupModel.ginfo]. rewrite H, L. reflexivity. Qed.
Lemma gi_binl v op a b g gb u en l : gleaf v a = true -> ginf v a = (Ok g, Some (mkGJ u (en :: l) false)) -> ginf v b = (Ok gb, None) ->
  ginf v (GBin op a b) = (gback2 Rnum gsame op a b g gb, Some (mkGJ u (en :: l) false)).
Proof. intros L H Hb. cbn [GroupModel.ginfo]. rewrite H, Hb, L. reflexivity. Qed.
Lemma gi_binr v op a b ga g u en l : gleaf v b = true -> ginf v a = (Ok ga, None) -> ginf v b = (Ok g, Some (mkGJ u (en :: l) false)) ->
  ginf v (GBin op a b) = (gback2 Rnum gsame op a b ga g, Some (mkGJ u (en :: l) false)).
Proof. intros L Ha H. cbn [GroupModel.ginfo]. rewrite H, Ha, L, Bool.orb_true_r. reflexivity. Qed.
Lemma gi_size v ax a : ginf v (GSize ax a) = (Ok gz, None).
Proof. reflexivity. Qed.

Lemma mean_back S N0 D0 g x : gbinary Rnum gsame BMul g S = Ok x -> gview Rnum x = CNone -> x <> gz -> N0 <> gz ->
  gbinary Rnum gsame BMul S S = Ok D0 -> gback2 Rnum gsame BDiv N0 S g gz = gbinary Rnum gsame BDiv x D0.
Proof. intros H V Nx Nn Hd. cbn [gback2]. rewrite H. cbn [bind]. rewrite mul0l by auto. cbn [bind]. rewrite sub0 by auto. cbn [bind]. rewrite Hd. reflexivity. Qed.

Lemma nD_build e : gbinary Rnum gsame BMul (nS e) (nS e) = Ok (nD e).
Proof. unfold nD. apply sq_build; try reflexivity; exact I. Qed.
Lemma nD_div x e : gview Rnum x = CNone -> grouping x = None -> (match x with GBin _ _ _ | GAx _ _ _ _ _ => True | _ => False end) -> (forall a b, x = GBin BMul a b -> a <> b) ->
  gbinary Rnum gsame BDiv x (nD e) = Ok (GBin BDiv x (nD e)).
Proof.
  intros V G C Ne. unfold gbinary. assert (Gd : grouping (nD e) = None) by (unfold nD; destruct (gsame (nS e) (nS e)); reflexivity). rewrite G, Gd. cbn [ghelper].
  assert (Gv : gview Rnum (nD e) = CNone) by (unfold nD; destruct (gsame (nS e) (nS e)); reflexivity). rewrite V, Gv.
  rewrite gdiff; [reflexivity|]. unfold nD. destruct (gsame (nS e) (nS e)); intros ->; [contradiction|]. now apply (Ne (nS e) (nS e)).
Qed.
Lemma info_M v e X u l : has_leaf v e = false -> has_leaf v (nL e) = true -> v <> vb -> inf v (nL e) = (Ok X, Some (mkJ u l false)) -> l <> [] ->
  ginf v (nM e) = (Ok (nR (inj X) e), Some (mkGJ (inj u) (map inj_en l) false)).
Proof.
  intros He Hl Nv Hi Nl.
  assert (Na : no_axis_sum v (nL e)) by (cbn; repeat split; auto using free_na).
  pose proof (info_inj Rnum fresh use INR gsame env v (nL e) Na) as I1. rewrite Hi in I1.
  assert (Fv : has_leaf v (nV e) = false) by (cbn [has_leaf nV]; rewrite He; apply Nat.eqb_neq; congruence).
  pose proof (free_g v (nV e) Fv) as I2.
  destruct l as [|en l]; [contradiction|]. change (map inj_en (en :: l)) with (inj_en en :: map inj_en l).
  assert (I1' : ginf v (inj (nL e)) = (Ok (inj X), Some (mkGJ (inj u) (inj_en en :: map inj_en l) false))) by exact I1. clear I1. rename I1' into I1.
  assert (G1 : gleaf v (inj (nL e)) = true) by now rewrite leaf_inj.
  pose proof (gi_sum v (Some 0) _ _ _ _ _ G1 I1) as I3.
  assert (G3 : gleaf v (GSum (Some 0) (inj (nL e))) = true) by exact G1.
  pose proof (gi_binl v BAdd _ _ _ _ _ _ _ G3 I3 I2) as I4. cbn [gback2] in I4. rewrite add0r in I4 by reflexivity.
  assert (G4 : gleaf v (GBin BAdd (GSum (Some 0) (inj (nL e))) (inj (nV e))) = true) by (cbn [gleaf]; rewrite G1; reflexivity).
  pose proof (gi_un v UNeg _ _ _ _ _ G4 I4) as I5. cbn [gback1 gunary gneg gfold] in I5. rewrite <- fe_inj in I5.
  assert (G5 : gleaf v (inj (fe_node w hb vb e)) = true) by exact G4.
  pose proof (gi_sum v None _ _ _ _ _ G5 I5) as I6. cbn iota in I6.
  pose proof (gi_binl v BDiv (GSum None (inj (fe_node w hb vb e))) (nS e) _ _ _ _ _ G5 I6 (gi_size v None _)) as I7.
  unfold nM. fold (nS e) in *. rewrite I7. f_equal.
  rewrite (mean_back _ _ (nD e) _ (GAx BMul false 0 (GUn UNeg (GGrp 0 (inj X))) (nS e))); try discriminate; try reflexivity.
  - apply nD_div; try reflexivity. discriminate.
  - unfold gbinary. cbn [grouping ghelper]. rewrite gdiff by discriminate. reflexivity.
  - apply nD_build.
Qed.

(** for the visible biases *)
Definition nRV (e : @expr R) : @gexpr R := GBin BDiv (GBin BMul (GUn UNeg (GEq (inj (nV e)) (inj (nV e)))) (nS e)) (nD e).
Lemma info_V e : has_leaf vb e = false ->
  ginf vb (inj (nV e)) = (Ok (GEq (inj (nV e)) (inj (nV e))), Some (mkGJ (inj (nV e)) [GJMat false true (inj e) (GTr (GVar vb)) (Ok gz) (Ok (GTr go))] false)).
Proof.
  intros He. pose proof (free_g vb e He) as I1. change (inj (nV e)) with (GMat false true (inj e) (GTr (GVar vb))).
  assert (L : gleaf vb (inj e) = false) by now rewrite leaf_inj.
  cbn [GroupModel.ginfo gleaf]. rewrite I1, L, Nat.eqb_refl. reflexivity.
Qed.
Lemma info_MV e : has_leaf vb e = false ->
  ginf vb (nM e) = (Ok (nRV e), Some (mkGJ (inj (nV e)) [GJMat false true (inj e) (GTr (GVar vb)) (Ok gz) (Ok (GTr go))] false)).
Proof.
  intros He. pose proof (info_V e He) as I1.
  assert (Fl : has_leaf vb (ESumAx 0 (nL e)) = false).
  { cbn [has_leaf nL nP nE nA nMM]. rewrite He. replace (w =? vb) with false by (symmetry; apply Nat.eqb_neq; congruence). apply Nat.eqb_neq; congruence. }
  pose proof (free_g vb _ Fl) as I2. change (inj (ESumAx 0 (nL e))) with (GSum (Some 0) (inj (nL e))) in I2.
  assert (G1 : gleaf vb (inj (nV e)) = true) by (rewrite leaf_inj; cbn [has_leaf nV]; rewrite Nat.eqb_refl; apply Bool.orb_true_r).
  pose proof (gi_binr vb BAdd _ _ _ _ _ _ _ G1 I2 I1) as I4. cbn [gback2] in I4. rewrite add0l in I4.
  assert (G4 : gleaf vb (GBin BAdd (GSum (Some 0) (inj (nL e))) (inj (nV e))) = true) by (cbn [gleaf]; rewrite G1; apply Bool.orb_true_r).
  pose proof (gi_un vb UNeg _ _ _ _ _ G4 I4) as I5. cbn [gback1 gunary gneg gfold] in I5. rewrite <- fe_inj in I5.
  assert (G5 : gleaf vb (inj (fe_node w hb vb e)) = true) by exact G4.
  pose proof (gi_sum vb None _ _ _ _ _ G5 I5) as I6. cbn iota in I6.
  pose proof (gi_binl vb BDiv (GSum None (inj (fe_node w hb vb e))) (nS e) _ _ _ _ _ G5 I6 (gi_size vb None _)) as I7.
  unfold nM. rewrite I7. f_equal.
  rewrite (mean_back _ _ (nD e) _ (GBin BMul (GUn UNeg (GEq (inj (nV e)) (inj (nV e)))) (nS e))); try discriminate; try reflexivity.
  - apply nD_div; try reflexivity. intros a b H. injection H as <- <-. discriminate.
  - unfold gbinary. cbn [grouping ghelper inj nV]. rewrite gdiff by discriminate. reflexivity.
  - apply nD_build.
Qed.

(** ---- derivatives of the mean ---- *)
Notation der := (gderive Rnum fresh use INR gsame env).
Lemma der_W e X A t B : has_leaf w e = false ->
  nR (inj (xW e)) e = X -> geval Rnum fresh use INR env (GMat false true X (GTr (GVar w))) = Ok A ->
  mk_tr e = t -> geval Rnum fresh use INR env (GMat true false (inj t) X) = Ok B ->
  der w (nM e) = Ok (GMat true false (inj t) X).
Proof.
  intros He EX EA Et EB. unfold gderive, gderive_of.
  assert (Hl : has_leaf w (nL e) = true) by (cbn [has_leaf nL nP nE nA nMM]; rewrite Nat.eqb_refl, Bool.orb_true_r; reflexivity).
  rewrite (info_M w e _ _ _ He Hl Nwv (info_W e He)) by discriminate. rewrite EX. cbn [fst snd bind gj_list map inj_en gjac_call fold_right gjac_step rmap inj].
  assert (Z : gzero Rnum go = false) by (unfold gzero; rewrite const_eq; apply Req_f; cbn; lra). rewrite Z, Bool.andb_false_r.
  unfold gmat. cbn [gtr]. rewrite EA. rewrite tr_inj, Et, EB. cbn [bind].
  rewrite mul0r by (reflexivity || discriminate). cbn [bind]. rewrite mul1r by (reflexivity || exact I). cbn [bind]. apply add0l.
Qed.
Lemma der_H e : has_leaf hb e = false -> der hb (nM e) = Ok (GSum (Some 1) (nR (inj (xH e)) e)).
Proof.
  intros He. unfold gderive, gderive_of.
  assert (Hl : has_leaf hb (nL e) = true) by (cbn [has_leaf nL nP nE nA nMM]; rewrite Nat.eqb_refl, Bool.orb_true_r; reflexivity).
  rewrite (info_M hb e _ _ _ He Hl Nhv (info_H e He)) by discriminate. reflexivity.
Qed.
Lemma der_V e X A t B C : has_leaf vb e = false ->
  nRV e = X -> geval Rnum fresh use INR env (GMat false true X (GVar vb)) = Ok A ->
  mk_tr e = t -> geval Rnum fresh use INR env (GMat true false (inj t) X) = Ok B -> geval Rnum fresh use INR env (GTr (GMat true false (inj t) X)) = Ok C ->
  der vb (nM e) = Ok (GBin BMul (GTr (GMat true false (inj t) X)) (GTr go)).
Proof.
  intros He EX EA Et EB EC. unfold gderive, gderive_of.
  rewrite (info_MV e He). rewrite EX. cbn [fst snd bind gj_list map gjac_call fold_right gjac_step].
  assert (Z : gzero Rnum (GTr go) = false) by reflexivity. rewrite Z, Bool.andb_false_r.
  unfold gmat. cbn [gtr]. rewrite EA. rewrite tr_inj, Et, EB. cbn [bind gtr]. rewrite EC. cbn [bind].
  rewrite mul0r by (reflexivity || discriminate). cbn [bind].
  unfold gbinary at 1. cbn [grouping ghelper]. rewrite gdiff by discriminate. cbn [gview gnode2 bind]. apply add0l.
Qed.
End Der.
