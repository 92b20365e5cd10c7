(** Fine tuning as a whole. *)
From Coq Require Import String Reals Lra Lia Permutation.
From Verif Require Import Common CseModel ShapeModel ShapeProofs ShapeSpec TransformSpec TransformModel TransformProofs TransformLaws MatmulSpec ElemModel ElemProofs NumSpec RealNum ElemLaws GradModel GradSpec GradProofs MatrixSpec MatrixProofs MlpSpec MlpModel MlpProofs MlpLaws CopyLaws NetSpec NetProofs NetMlpProofs NetLaws GroupModel GroupProofs GroupSubst RbmTrainProofs DbSpec DbModel DbGrad DbProofs DbNet DbCalc DbFine.
From Verif Require DqnModel DqnProofs.
From Verif Require Import ElemSpec.
Local Open Scope list_scope.
Local Open Scope R_scope.
Notation cost_node z := (GUn UNeg (GBin BDiv (GSum None (inj (lg z))) (GSize None (inj (lg z))))).
Notation is_con u := (match u with GConst _ => true | _ => false end).

Lemma inj_inj (a b : @expr R) : inj a = inj b -> a = b.
Proof. revert b. induction a; intros b; destruct b; cbn [inj]; intros E; try discriminate E; injection E; intros; subst; f_equal; auto. Qed.
Lemma nodup_left (a b : list nat) : NoDup (a ++ b) -> NoDup a.
Proof. induction a as [|x a IH]; intros H; [constructor|]. inversion H as [|? ? H1 H2]; subst. constructor; [intros Q; apply H1, in_or_app; now left|auto]. Qed.
Lemma layers_env (env env' : nat -> tens R) vars sizes gs : (forall v, In v vars -> env' v = env v) -> layers_of Rnum env' vars sizes gs = layers_of Rnum env vars sizes gs.
Proof.
  assert (G : forall sizes gs vars, (forall v, In v vars -> env' v = env v) -> layers_of Rnum env' vars sizes gs = layers_of Rnum env vars sizes gs); [|apply G].
  clear. induction sizes as [|c sizes IH]; intros [|g gs] [|w [|b vars]] H; try reflexivity. cbn [layers_of]. rewrite (H w), (H b) by (cbn; auto). f_equal. apply IH. intros v Hv. apply H. cbn; auto.
Qed.
Lemma sub_ok (t d : tens R) con : con = false -> length (snd t) = n_elems (fst t) -> length (snd d) = n_elems (fst d) -> length (snd d) = length (snd t) ->
  exists new, DqnModel.assign_sub t (d, con) = Ok new /\ fst new = fst t /\ length (snd new) = length (snd t) /\ forall k, (k < length (snd t))%nat -> nth k (snd new) 0 = nth k (snd t) 0 - nth k (snd d) 0.
Proof.
  intros -> Lt Ld L. unfold DqnModel.assign_sub. cbn [andb]. replace (n_elems (fst d) =? n_elems (fst t))%nat with true by (symmetry; apply Nat.eqb_eq; lia). cbn [assert_ bind].
  rewrite DqnProofs.sub_loop by lia. cbn [bind]. eexists. split; [reflexivity|]. split; [reflexivity|]. cbn [snd].
  assert (Lm : length (map2 Rminus (snd t) (snd d)) = length (snd t)) by (rewrite DqnProofs.map2_length; lia). split; [exact Lm|].
  intros k Hk. apply nth_error_nth. apply DqnProofs.map2_nth; apply nth_error_nth'; lia.
Qed.
Lemma sub_zero (t : tens R) : DqnModel.assign_sub t (const_scalar 0, true) = Ok t.
Proof. unfold DqnModel.assign_sub. rewrite (zero_c : const_is Rnum (const_scalar 0) 0 = true). reflexivity. Qed.

Section Nodes.
Context (gsame : @gexpr R -> @gexpr R -> bool) (fresh : nat -> R) (use : bool) (env : nat -> tens R).
Notation gev := (geval Rnum fresh use INR env).
Notation ev := (eval Rnum fresh use env).

Lemma free_cost w z : no_axis_sum w z -> has_leaf w z = false -> gderive Rnum fresh use INR gsame env w (cost_node z) = Ok (GConst (const_scalar 0)).
Proof.
  intros S L. assert (Sl : no_axis_sum w (lg z)) by (unfold lg, sm, ez; cbn [no_axis_sum]; auto). assert (Ll : has_leaf w (lg z) = false) by (unfold lg, sm, ez; cbn [has_leaf]; now rewrite L).
  unfold gderive. cbn [GroupModel.ginfo]. rewrite (info_inj Rnum fresh use INR gsame env w (lg z) Sl), free_ginfo by exact Ll. unfold inj_i. cbn [fst snd option_map rmap gleaf ginherit].
  rewrite leaf_inj, Ll. reflexivity.
Qed.
Lemma mean_val e t c r : ev e = Ok t -> matrix c r t -> exists m, gev (GBin BDiv (GSum None (inj e)) (GSize None (inj e))) = Ok m /\ matrix 1 1 m /\ at_ m 0 = Sum (at_ t) (c * r) / INR (c * r).
Proof.
  intros E M. destruct (sum_node fresh use 1 (le_n 1) env c r e (ex_intro _ t (conj E M))) as (s & E1 & S1 & L1 & V1).
  assert (Es : gev (GSum None (inj e)) = Ok s) by (change (GSum None (inj e)) with (inj (ESum e)); rewrite geval_inj; exact E1).
  assert (Ez : gev (GSize None (inj e)) = Ok ([1%nat], [INR (c * r)])) by (apply (g_size fresh use env _ t); [rewrite geval_inj; exact E|now rewrite (matrix_n _ _ _ M)]).
  assert (Ms : matrix 1 1 s) by (unfold matrix; rewrite L1, S1; repeat split; auto).
  destruct (g_bin fresh use env BDiv (GSum None (inj e)) (GSize None (inj e)) 1 1 s ([1%nat], [INR (c * r)]) (conj Es Ms)) as (m & [Em Mm] & Vm); [split; [exact Ez|repeat split; auto]|].
  exists m. split; [exact Em|]. split; [exact Mm|]. rewrite (at_nth' m 0 1) by (auto; destruct Mm as (_ & _ & -> & _); reflexivity). specialize (Vm 0%nat 0%nat ltac:(lia) ltac:(lia)). unfold entry in Vm. cbn [Nat.add Nat.mul snd nth] in Vm. rewrite Vm. cbn [bmeaning n_div Rnum]. f_equal.
  specialize (V1 0%nat). rewrite (at_nth' s 0 1) in V1 by auto. rewrite V1. apply sumR_ext. intros i Hi. unfold nval. now rewrite E.
Qed.
Lemma cost_value c r z za zb tz : z = EAxB 1 za zb -> ev z = Ok tz -> matrix c r tz -> exists m, gev (cost_node z) = Ok m /\ snd m = [log_cost (at_ tz) (c * r)].
Proof.
  intros Hz E M. assert (Mz : ismat fresh use env c r z) by (exists tz; auto). assert (Fz : gfit fresh use [c; r] env z) by (pose proof E as E'; rewrite Hz in *; exists tz; split; [exact E'|now apply matrix_fits]).
  destruct (lg_mat fresh use env c r z Mz) as (t & Et & Mt).
  destruct (mean_val (lg z) t c r Et Mt) as (m & Em & Mm & Vm).
  destruct (g_un fresh use env UNeg (GBin BDiv (GSum None (inj (lg z))) (GSize None (inj (lg z)))) 1 1 m (conj Em Mm)) as (u & [Eu Mu] & Vu). exists u. split; [exact Eu|].
  specialize (Vu 0%nat 0%nat ltac:(lia) ltac:(lia)). unfold entry in Vu. cbn [Nat.add Nat.mul] in Vu.
  destruct Mu as (_ & _ & Lu & _). destruct (snd u) as [|y [|? ?]]; try discriminate Lu. f_equal. cbn [nth] in Vu. rewrite Vu. cbn [meaning n_neg Rnum]. unfold log_cost. f_equal.
  rewrite (at_nth' m 0 1) in Vm by (auto; destruct Mm as (_ & _ & -> & _); reflexivity). rewrite Vm. f_equal. apply sumR_ext. intros i Hi.
  assert (Vl : nval fresh use env i (lg z) = at_ t i) by (unfold nval; now rewrite Et). rewrite <- Vl, (lg_val fresh use env 1 (le_n 1) c r z Mz Fz i Hi). unfold share.
  unfold nval. rewrite E. reflexivity.
Qed.
Lemma soft_value c r z za zb tz : z = EAxB 1 za zb -> ev z = Ok tz -> matrix c r tz -> exists t, ev (sm z) = Ok t /\ matrix c r t /\ forall i, (i < c * r)%nat -> at_ t i = share (at_ tz) (c * r) i.
Proof.
  intros Hz E M. assert (Mz : ismat fresh use env c r z) by (exists tz; auto). assert (Fz : gfit fresh use [c; r] env z) by (pose proof E as E'; rewrite Hz in *; exists tz; split; [exact E'|now apply matrix_fits]).
  destruct (sm_mat fresh use env c r z Mz) as (t & Et & Mt). exists t. split; [exact Et|]. split; [exact Mt|]. intros i Hi.
  assert (Vl : nval fresh use env i (sm z) = at_ t i) by (unfold nval; now rewrite Et). rewrite <- Vl, (sm_val fresh use env 1 (le_n 1) c r z Mz Fz i Hi). unfold share, nval. now rewrite E.
Qed.
Lemma error_ok (gs_ok : forall a b, gsame a b = true -> a = b) c r z za zb tz v : z = EAxB 1 za zb -> ev z = Ok tz -> matrix c r tz -> matrix c r (env v) ->
  exists e m, db_error Rnum gsame (sm z) v = Ok e /\ gev e = Ok m /\ snd m = [Sum (fun i => (share (at_ tz) (c * r) i - at_ (env v) i) ^ 2) (c * r) / INR (c * r)].
Proof.
  intros Hz E M Mv. destruct (soft_value c r z za zb tz Hz E M) as (t & Et & Mt & Vt).
  set (q := EUn (UPow 2) (EBin BSub (sm z) (EVar v))).
  assert (B : db_error Rnum gsame (sm z) v = Ok (GBin BDiv (GSum None (inj q)) (GSize None (inj q)))).
  { unfold db_error. cbn [mk_binary]. destruct (gsame (inj (sm z)) (inj (EVar v))) eqn:Q; [apply gs_ok in Q; discriminate|]. cbn [cview_of sm bind mk_unary fold_node].
    change (n_two Rnum) with 2. rewrite (Reqb_no 2 (n_zero Rnum)), (Reqb_no 2 (n_one Rnum)) by (cbn; lra). cbn [bind]. fold (sm z). fold q. unfold gmean, gbinary. cbn [grouping ghelper].
    destruct (gsame (GSum None (inj q)) _) eqn:Q2; [apply gs_ok in Q2; discriminate|]. reflexivity. }
  assert (Mb : ismat fresh use env c r (EBin BSub (sm z) (EVar v))).
  { apply (bin_mat_l _ _ _ _ _ _ _ _ (env v)); [exists t; auto|reflexivity|now apply matrix_fits]. }
  destruct (un_mat fresh use env c r (UPow 2) _ Mb) as (tq & Eq & Mq). fold q in Eq.
  destruct (mean_val q tq c r Eq Mq) as (m & Em & Mm & Vm). exists (GBin BDiv (GSum None (inj q)) (GSize None (inj q))), m. split; [exact B|]. split; [exact Em|].
  rewrite (at_nth' m 0 1) in Vm by (auto; destruct Mm as (_ & _ & -> & _); reflexivity). destruct Mm as (_ & _ & Lm & _). destruct (snd m) as [|y [|? ?]]; try discriminate Lm. f_equal. cbn [nth] in Vm. rewrite Vm. f_equal.
  apply sumR_ext. intros i Hi. assert (Hi' : (i < n_elems [c; r])%nat) by (cbn; lia).
  assert (Fs : gfit fresh use [c; r] env (sm z)).
  { apply sm_fit; [exists tz; auto|]. pose proof E as E'. rewrite Hz in *. exists tz. split; [exact E'|now apply matrix_fits]. }
  assert (Fv : gfit fresh use [c; r] env (EVar v)) by (exists (env v); split; [reflexivity|now apply matrix_fits]).
  assert (Vq : nval fresh use env i q = at_ tq i) by (unfold nval; now rewrite Eq). rewrite <- Vq. unfold q.
  rewrite (val_un fresh use [c; r]); [|split; assumption|exact Hi']. rewrite (val_bin fresh use [c; r]); [|assumption|assumption|exact Hi']. cbn [meaning bmeaning n_sub Rnum].
  assert (Vs : nval fresh use env i (sm z) = share (at_ tz) (c * r) i) by (unfold nval; rewrite Et; now apply Vt). rewrite Vs.
  assert (Vv : nval fresh use env i (EVar v) = at_ (env v) i) by reflexivity. rewrite Vv. exact (Rpow_IZR _ 2).
Qed.
End Nodes.

Lemma finetune_list gsame fresh use env lr cost (P : nat -> @gexpr R -> Prop) vs :
  (forall v, In v vs -> exists g u, gderive Rnum fresh use INR gsame env v cost = Ok g /\ gunary Rnum (UMulL lr) g = Ok u /\ P v u) ->
  exists us, finetune_from Rnum fresh use INR gsame (map Some vs) env lr cost = Ok us /\ map fst us = vs /\ forall v u, In (v, u) us -> P v u.
Proof.
  induction vs as [|v vs IH]; intros H.
  - exists []. split; [reflexivity|]. split; [reflexivity|]. contradiction.
  - destruct (H v) as (g & u & G1 & G2 & G3); [now left|]. destruct IH as (us & U1 & U2 & U3); [intros w Hw; apply H; now right|].
    exists ((v, u) :: us). cbn [map finetune_from ptr_of bind]. rewrite G1. cbn [bind]. rewrite G2. cbn [bind]. rewrite U1. cbn [bind]. split; [reflexivity|]. cbn [fst]. split; [now rewrite U2|].
    intros w u' [[= <- <-]|Hin]; auto.
Qed.

(** what fine tuning does to variable [v] when it runs with node [u] *)
Definition step_ok fresh use (env : nat -> tens R) (f : (nat -> tens R) -> nat -> R) (m : nat) (lr : R) (v : nat) (u : @gexpr R) : Prop :=
  exists d new, geval Rnum fresh use INR env u = Ok d /\ DqnModel.assign_sub (env v) (d, is_con u) = Ok new /\ fst new = fst (env v) /\ length (snd new) = length (snd (env v)) /\
  forall k, (k < length (snd (env v)))%nat -> exists D : nat -> R,
    (forall i, (i < m)%nat -> derivable_pt_lim (fun x => f (set_elem env v k x) i) (nth k (snd (env v)) 0) (D i)) /\
    derivable_pt_lim (fun x => log_cost (f (set_elem env v k x)) m) (nth k (snd (env v)) 0) (Sum (fun i => (share (f env) m i - 1 / INR m) * D i) m) /\
    nth k (snd new) 0 = nth k (snd (env v)) 0 - lr * Sum (fun i => (share (f env) m i - 1) / INR m * D i) m.

Lemma finetune_ok of_nat gsame fresh use env n b sizes scope st d st' ti to lr :
  (forall a b, gsame a b = true -> a = b) -> (forall tA tB a b, gsame (GMat tA tB a b) (GMat tA tB a b) = true) -> (forall axis a b, gsame (GAx BAdd false axis a b) (GAx BAdd false axis a b) = true) ->
  (0 < n)%nat -> (0 < b)%nat -> 0 < lr -> Forall (fun h => (0 < h)%nat) sizes -> db_new Rnum of_nat n sizes scope st = Ok (d, st') ->
  exists vars, db_variables d = Ok (map Some vars) /\ NoDup vars /\
  ((forall v, In v vars -> initialized env st' v) -> ~ In ti vars -> matrix n b (env ti) -> fst (env ti) = [n; b] -> matrix (last sizes 0%nat) b (env to) ->
   let m := n_out sizes b in let z := logit env vars sizes n (env ti) in
   exists out t cost us error tc te,
     (exists z', cost = cost_node z') /\
     db_prop_up Rnum (fun a b => gsame (inj a) (inj b)) d (EVar ti) [n; b] = Ok out /\ eval Rnum fresh use env out = Ok t /\ matrix (last sizes 0%nat) b t /\ (forall i, (i < m)%nat -> at_ t i = share z m i) /\
     db_finetune Rnum fresh use INR gsame d env ti to lr = Ok (cost, us, error) /\
     geval Rnum fresh use INR env cost = Ok tc /\ snd tc = [log_cost z m] /\
     geval Rnum fresh use INR env error = Ok te /\ snd te = [Sum (fun i => (share z m i - at_ (env to) i) ^ 2) m / INR m] /\
     map fst us = vars /\ forall v u, In (v, u) us -> step_ok fresh use env (fun e => logit e vars sizes n (env ti)) m lr v u).
Proof.
  intros gs_ok gs_mat gs_ax Hn Hb Hl Hs E.
  destruct (db_struct _ _ _ _ _ _ _ E) as (hid & c & rs & l & vars & -> & -> & Hv & Nd & Lr & Hr & Hp & C & Pm & HL).
  exists vars. split; [exact Hv|]. split; [exact Nd|]. intros Hi Nt Mt St Mo. cbv zeta. unfold n_out. rewrite last_last in *. set (m := (c * b)%nat). set (z := logit env vars (hid ++ [c]) n (env ti)).
  assert (Np : NoDup (params (db_ls rs l))) by (apply (nodup_left _ (visible_biases vars)); apply (Permutation_NoDup Pm Nd)).
  assert (Ip : forall p, In p (params (db_ls rs l)) -> In p vars) by (intros p Q; apply (Permutation_in p (Permutation_sym Pm)), in_or_app; now left).
  assert (Hi' : forall p, In p (params (db_ls rs l)) -> initialized env st' p) by auto.
  assert (Nt' : ~ In ti (params (db_ls rs l))) by auto.
  destruct (node_ok fresh use st' n b hid c rs l vars env ti Hb Hs Lr C HL Hi' Mt (fun _ _ => false)) as (zn & tz & za & zb & Z1 & Z2 & Z3 & Z4 & Z5).
  assert (Z1' : forall same, mlp_fold Rnum same (db_ls rs l) (EVar ti) = Ok zn) by (intros same; rewrite (fold_same same (fun _ _ => false) st' _ _ _ _ C); exact Z1).
  assert (Pu : db_prop_up Rnum (fun a b => gsame (inj a) (inj b)) (mkDb scope n c rs (Some l)) (EVar ti) [n; b] = Ok (sm zn)).
  { unfold db_prop_up. cbn [d_nin d_layers d_log]. rewrite (check_input_ok n _ (compat_batch n b)). cbn [bind]. rewrite (fold_lay (fun a b => gsame (inj a) (inj b)) rs _ Hp).
    specialize (Z1' (fun a b => gsame (inj a) (inj b))). unfold db_ls in Z1'. rewrite mlp_fold_app in Z1'. destruct (mlp_fold Rnum _ (map lay rs) (EVar ti)) as [x| | |]; try discriminate Z1'. cbn [bind mlp_fold] in Z1' |- *.
    destruct (fc_call Rnum _ l [x]) as [y| | |]; try discriminate Z1'. cbn [bind mk_id] in Z1' |- *. injection Z1' as ->.
    apply softmax_node; [|rewrite Z2; exact I]. intros x0 y0 Q. apply gs_ok in Q. now apply inj_inj. }
  destruct (soft_value fresh use env c b zn za zb tz Z2 Z3 Z4) as (t & T1 & T2 & T3).
  destruct (cost_value fresh use env c b zn za zb tz Z2 Z3 Z4) as (tc & C1 & C2).
  destruct (error_ok gsame fresh use env gs_ok c b zn za zb tz to Z2 Z3 Z4 Mo) as (error & te & R1 & R2 & R3).
  assert (Ezz : forall i, (i < m)%nat -> share (at_ tz) m i = share z m i).
  { intros i Hlt. unfold share. rewrite Z5 by exact Hlt. f_equal. apply sumR_ext. intros j Hj. now rewrite Z5. }
  assert (Mp : (0 < m)%nat) by (destruct Z4; unfold m; nia).
  destruct (finetune_list gsame fresh use env lr (cost_node zn) (step_ok fresh use env (fun e => logit e vars (hid ++ [c]) n (env ti)) m lr) vars) as (us & U1 & U2 & U3).
  { intros v Hin. destruct (in_dec Nat.eq_dec v (params (db_ls rs l))) as [Hpar|Hnp].
    - destruct (param_gradient gsame fresh use gs_ok gs_mat gs_ax st' n b hid c rs l vars env ti Hn Hb Hs Lr C HL Hi' Np Nt' Mt v Hpar zn tz Z1' Z3 Z4 Z5) as (Y & y & Y1 & Y2 & Y3 & Y4 & Y5 & Y6 & Y7).
      destruct (scale_any fresh use env lr Y y Hl Y2 Y3 Y4 Y5) as (U & u & X1 & X2 & Wu & X3 & X4). exists Y, U. split; [exact Y1|]. split; [exact X1|].
      assert (Cu : is_con U = false).
      { destruct U; try reflexivity. exfalso. cbn [gunary] in X1. change (n_zero Rnum) with 0 in X1. change (n_one Rnum) with 1 in X1. change (n_neg Rnum 1) with (-(1)) in X1.
        destruct Y; try contradiction; rewrite (Reqb_no 0 lr), (Reqb_no (- (1)) lr) in X1 by lra; destruct (n_eqb Rnum 1 lr); discriminate X1. }
      assert (Wv : length (snd (env v)) = n_elems (fst (env v))).
      { destruct (Hi v Hin) as (q & _ & Q1 & Q2). now rewrite Q1, Q2. }
      destruct (sub_ok (env v) u (is_con U) Cu Wv Wu ltac:(lia)) as (new & N1 & N2 & N3 & N4).
      exists u, new. split; [exact X2|]. split; [exact N1|]. split; [exact N2|]. split; [exact N3|]. intros k Hk. destruct (Y7 k Hk) as (D & D1 & D2).
      rewrite (at_nth' (env v) k (length (snd (env v))) eq_refl Hk) in D1. exists D. split; [exact D1|]. split.
      + assert (Q := log_cost_lim (fun i x => logit (set_elem env v k x) vars (hid ++ [c]) n (env ti) i) D m (nth k (snd (env v)) 0) Mp D1).
        eapply lim_val; [|exact Q]. apply sumR_ext. intros i Hlt. cbv beta. do 2 f_equal. unfold share, z, logit. rewrite !HL. rewrite (layers_env env); [reflexivity|]. intros q _. rewrite <- (at_nth' (env v) k (length (snd (env v))) eq_refl Hk). now apply (proj2 (p_lt st' n b hid c rs l env Hn Hb Hs Lr C Hi' v Hpar)).
      + rewrite N4 by exact Hk. f_equal. rewrite <- (at_nth' u k (length (snd (env v)))) by lia. rewrite X4, D2. reflexivity.
    - exists (GConst (const_scalar 0)), (GConst (const_scalar 0)). split; [|split].
      + apply free_cost; [apply (fold_nas (fun _ _ => false) st' v _ _ _ (EVar ti) zn C (plain_hs hid c) Z1); exact I|].
        destruct (has_leaf v zn) eqn:Q; [|reflexivity]. exfalso. destruct (fold_leaf (fun _ _ => false) st' v _ _ _ _ _ C (plain_hs hid c) Z1 Q) as [Q'|Q']; [|contradiction]. cbn [has_leaf] in Q'. apply Nat.eqb_eq in Q'. subst v. contradiction.
      + cbn [gunary]. change (n_zero Rnum) with 0. rewrite (zero_c : const_is Rnum (const_scalar 0) 0 = true). reflexivity.
      + exists (const_scalar 0), (env v). split; [reflexivity|]. split; [apply sub_zero|]. split; [reflexivity|]. split; [reflexivity|]. intros k Hk. exists (fun _ => 0).
        assert (Eq : forall x, logit (set_elem env v k x) vars (hid ++ [c]) n (env ti) = z).
        { intros x. unfold z, logit. rewrite !HL. rewrite (layers_env env); [reflexivity|]. intros q Hq. unfold set_elem. destruct (Nat.eqb_spec q v) as [->|]; [contradiction|reflexivity]. }
        split; [|split].
        * intros i _. apply (lim_ext (fun _ => z i)); [intros x; now rewrite Eq|]. apply derivable_pt_lim_const.
        * apply (lim_ext (fun _ => log_cost z m)); [intros x; now rewrite Eq|]. eapply lim_val; [|apply derivable_pt_lim_const]. rewrite (sumR_ext _ (fun _ => 0)) by (intros; ring). rewrite sum_const. ring.
        * rewrite (sumR_ext _ (fun _ => 0)) by (intros; ring). rewrite sum_const. ring. }
  exists (sm zn), t, (cost_node zn), us, error, tc, te. split; [now exists zn|]. split; [exact Pu|]. split; [exact T1|]. split; [exact T2|]. split; [intros i Hlt; rewrite T3 by exact Hlt; now apply Ezz|].
  split; [|split; [exact C1|split; [|split; [exact R2|split; [|split; [exact U2|exact U3]]]]]].
  - unfold db_finetune. rewrite St, Pu. cbn [bind]. rewrite (cost_build gsame gs_ok). cbn [bind]. rewrite R1. cbn [bind]. rewrite Hv. cbn [bind]. rewrite U1. reflexivity.
  - rewrite C2. f_equal. unfold log_cost. f_equal. f_equal. apply sumR_ext. intros i Hlt. now rewrite Ezz.
  - rewrite R3. f_equal. f_equal. apply sumR_ext. intros i Hlt. now rewrite Ezz.
Qed.
