(** C61: deep belief networks, their values, pretraining and fine tuning. *)
From Coq Require Import String Reals Lra Lia Permutation ClassicalDescription.
From Verif Require Import Common CseModel ShapeModel ShapeProofs MatmulSpec ElemModel ElemProofs NumSpec RealNum GradModel GradSpec GradProofs MatrixSpec MatrixProofs MlpSpec MlpModel MlpProofs MlpLaws GroupModel SampleSpec RbmSpec RbmTrainModel RbmChainModel DbSpec DbModel DbGrad DbNet.
From Verif Require DqnModel NetProofs NetLaws TrainSpec CopyLaws RbmTrainProofs DbCalc DbFine DbStep DbBias DbPre.
Local Open Scope list_scope.

(** prop_up of a batch of b samples: element i of the output is the share of the i-th of all
    b times c numbers that the last layer sums up, so all outputs of the batch are positive
    and sum up to 1. Inputs of the wrong size are refused, and so is an empty list of sizes. *)
Lemma C61_value_lemma :
  (forall (of_nat : nat -> R) same fresh use (env : nat -> tens R) (n b : nat) sizes scope st d st',
    (forall x y, same x y = true -> x = y) -> 0 < n -> 0 < b -> Forall (fun h => 0 < h) sizes ->
    db_new Rnum of_nat n sizes scope st = Ok (d, st') ->
    d_nout d = last sizes 0 /\
    exists vars, db_variables d = Ok (map Some vars) /\ NoDup vars /\ (forall v, In v vars -> length st <= v < length st') /\
    ((forall v, In v vars -> initialized env st' v) ->
      forall e t, eval Rnum fresh use env e = Ok t -> matrix n b t ->
      let z := logit env vars sizes n t in let m := n_out sizes b in
      exists e' t', db_prop_up Rnum same d e [n; b] = Ok e' /\ eval Rnum fresh use env e' = Ok t' /\ matrix (last sizes 0) b t' /\
        (forall i, i < m -> nth i (snd t') 0%R = share z m i /\ (0 < share z m i)%R) /\ Sum (share z m) m = 1%R)) /\
  (forall (T : Type) (N : num T) same d e s, is_compatible_with s [d_nin d; 0] = Ok false -> db_prop_up N same d e s = Abort) /\
  (forall (T : Type) (N : num T) of_nat n scope st, db_new N of_nat n [] scope st = Abort).
Proof.
  split; [|split; [|reflexivity]].
  - intros of_nat same fresh use env n b sizes scope st d st' Hsame Hn Hb Hs E.
    destruct (db_struct _ _ _ _ _ _ _ E) as (hid & c & rs & l & vars & -> & -> & Hv & Nd & Lr & Hr & Hp & C & Pm & HL).
    split; [cbn [d_nout]; now rewrite last_last|]. exists vars. split; [exact Hv|]. split; [exact Nd|]. split; [exact Hr|]. intros Hi e t He Ht. cbv zeta. unfold n_out. rewrite last_last. set (m := c * b). set (z := logit env vars (hid ++ [c]) n t).
    assert (Hi' : forall p, In p (params (db_ls rs l)) -> initialized env st' p).
    { intros p Q. apply Hi, (Permutation_in p (Permutation_sym Pm)), in_or_app. now left. }
    destruct (logits_ok fresh use same st' n b hid c rs l vars Hb Hs C HL env e t Hi' He Ht) as (zn & tz & Z1 & Z2 & Z3 & Z4).
    destruct (DbFine.fold_last _ _ _ _ _ _ _ _ _ C Lr Z1) as (za & zb & Ez).
    destruct (DbStep.soft_value fresh use env c b zn za zb tz Ez Z2 Z3) as (t' & T1 & T2 & T3).
    assert (Mp : 0 < m) by (destruct Z3; unfold m; nia).
    exists (sm zn), t'. split; [|split; [exact T1|split; [exact T2|split]]].
    + unfold db_prop_up. cbn [d_nin d_layers d_log]. rewrite (check_input_ok n _ (compat_batch n b)). cbn [bind]. rewrite (fold_lay same rs _ Hp).
      unfold db_ls in Z1. rewrite mlp_fold_app in Z1. destruct (mlp_fold Rnum _ (map lay rs) e) as [x| | |]; try discriminate Z1. cbn [bind mlp_fold] in Z1 |- *.
      destruct (fc_call Rnum _ l [x]) as [y| | |]; try discriminate Z1. cbn [bind mk_id] in Z1 |- *. injection Z1 as ->. apply DbFine.softmax_node; [exact Hsame|rewrite Ez; exact I].
    + intros i Hlt. split; [|now apply DbCalc.share_pos]. rewrite <- (RbmTrainProofs.at_nth' t' i m) by (auto; apply T2). rewrite T3 by exact Hlt. unfold share. rewrite Z4 by exact Hlt. f_equal.
      apply NetProofs.sumR_ext. intros j Hj. now rewrite Z4.
    + now apply DbCalc.share_sum.
  - intros T N same d e s H. unfold db_prop_up. now rewrite check_input_bad.
Qed.

Lemma three_vars (rs : list rbm) : forall j r tail, nth_error rs j = Some r -> firstn 3 (skipn (3 * j) (flat_map rbm_variables rs ++ tail)) = rbm_variables r.
Proof.
  induction rs as [|a rs IH]; intros [|j] r tail H; try discriminate H.
  - injection H as <-. reflexivity.
  - replace (3 * S j) with (3 + 3 * j) by lia. cbn [flat_map]. unfold rbm_variables at 1. cbn [app Nat.add skipn]. now apply IH.
Qed.
Lemma some_inj (a b : list nat) : map Some a = map Some b -> a = b.
Proof. revert b. induction a as [|x a IH]; intros [|y b] H; try discriminate H; [reflexivity|]. injection H as <- H. f_equal. auto. Qed.
Lemma two_params rs : Forall has_ptrs rs -> length (params (map lay rs)) = 2 * length rs.
Proof.
  induction 1 as [|r rs (w & hb & vb & H1 & H2 & _) _ IH]; [reflexivity|]. cbn [map flat_map]. unfold lay at 1. rewrite H1, H2. cbn [fst fc_variables fc_wb flat_map app length]. rewrite IH. lia.
Qed.
Lemma layers_len (env : nat -> tens R) hid : forall P gs, length P = 2 * length hid -> length gs = length hid -> length (layers_of Rnum env P hid gs) = length hid.
Proof.
  induction hid as [|h hid IH]; intros P gs HP Hg; [destruct P, gs; reflexivity|]. destruct gs as [|g gs]; [discriminate|]. destruct P as [|w [|b P]]; [discriminate|cbn in HP; lia|]. cbn [layers_of length]. f_equal. apply IH; cbn in *; lia.
Qed.
Lemma sum_grid (f : nat -> R) c b : Sum f (c * b) = Sum (fun y => Sum (fun x => f (x + c * y)) c) b.
Proof.
  induction b as [|b IH]; [now rewrite Nat.mul_0_r|]. replace (c * S b) with (c * b + c) by lia. rewrite NetProofs.sumR_app, IH. cbn [sumn]. f_equal. apply NetProofs.sumR_ext. intros i _. f_equal. lia.
Qed.
Lemma sum_two (f : nat -> R) b i : (forall y, y < b -> (0 < f y)%R) -> i < b -> 1 < b -> (f i < Sum f b)%R.
Proof.
  intros H Hi Hb. assert (G : forall M, M <= b -> (i < M -> (f i <= Sum f M)%R) /\ (i < M -> 1 < M -> (f i < Sum f M)%R) /\ (0 < M -> (0 < Sum f M)%R)).
  { induction M as [|M IH]; intros HM; [split; [lia|split; lia]|]. destruct IH as (I1 & I2 & I3); [lia|]. cbn [sumn]. pose proof (H M ltac:(lia)) as P.
    assert (P0 : (0 <= Sum f M)%R) by (destruct M; [cbn; lra|]; pose proof (I3 ltac:(lia)); lra).
    split; [|split].
    - intros HiM. destruct (Nat.eq_dec i M) as [->|Ne]; [lra|]. specialize (I1 ltac:(lia)). lra.
    - intros HiM H1. destruct (Nat.eq_dec i M) as [->|Ne]; [pose proof (I3 ltac:(lia)); lra|]. specialize (I1 ltac:(lia)). lra.
    - intros _. lra. }
  now apply (G b).
Qed.
(** Finding: softmax divides by the sum over the whole batch. In a batch of more than one
    sample the outputs of each sample sum up to less than 1, so they are not a distribution,
    and what the network gives for one sample depends on the others. *)
Lemma C61_rows_refuted_lemma :
  (forall (z : nat -> R) (c b y : nat), 0 < c -> 1 < b -> y < b -> (Sum (fun x => share z (c * b) (x + c * y)) c < 1)%R) /\
  (forall (z z' : nat -> R) (c b i : nat), 0 < c -> i < c -> 1 < b -> (forall j, j < c -> z' j = z j) -> (forall j, c <= j < c * b -> (z j < z' j)%R) ->
     (share z' (c * b) i < share z (c * b) i)%R).
Proof.
  split.
  - intros z c b y Hc Hb Hy. rewrite <- (DbCalc.share_sum z (c * b)) by nia. rewrite (sum_grid (share z (c * b)) c b).
    apply (sum_two (fun y => Sum (fun x => share z (c * b) (x + c * y)) c) b y); auto. intros y0 _. apply DbCalc.sum_pos; [exact Hc|]. intros. apply DbCalc.share_pos. nia.
  - intros z z' c b i Hc Hi Hb Eq Lt. unfold share. rewrite (Eq i Hi). pose proof (exp_pos (z i)) as Pe. pose proof (DbCalc.sum_exp_pos z (c * b) ltac:(nia)) as P. pose proof (DbCalc.sum_exp_pos z' (c * b) ltac:(nia)) as P'.
    unfold Rdiv. apply Rmult_lt_compat_l; [exact Pe|]. apply Rinv_lt_contravar; [now apply Rmult_lt_0_compat|].
    assert (G : forall M, M <= c * b -> (Sum (fun j => exp (z j)) M <= Sum (fun j => exp (z' j)) M)%R /\ (c < M -> (Sum (fun j => exp (z j)) M < Sum (fun j => exp (z' j)) M)%R)).
    { induction M as [|M IH]; intros HM; [split; [cbn; lra|lia]|]. destruct IH as [I1 I2]; [lia|]. cbn [sumn]. destruct (Nat.lt_ge_cases M c) as [Q|Q].
      - rewrite (Eq M Q). split; [lra|lia].
      - pose proof (exp_increasing _ _ (Lt M ltac:(lia))). split; [lra|intros _; lra]. }
    apply (G (c * b)); nia.
Qed.

(** Pretraining: the i-th training function trains the i-th machine on what the machines below
    compute from the input (the same numbers that prop_up feeds to it), with its chain started
    from that input. What it subtracts from each element of that machine's weights, hidden
    and visible biases is the learning rate times the partial derivative of the machine's
    cost, mean energy of its input minus mean energy of the chain's end. The parameters of
    the last layer are never changed. *)
Lemma C61_pretrain_lemma :
  forall (of_nat : nat -> R) (draw : nat -> nat -> R -> R -> R) same fresh use (env : nat -> tens R) (n b : nat) sizes scope st d st' k c lr input,
    (forall k, binomial (draw k)) -> (forall x y, same x y = true -> x = y) -> 0 < n -> 0 < b -> 0 < c -> (0 < lr)%R -> Forall (fun h => 0 < h) sizes ->
    db_new Rnum of_nat n sizes scope st = Ok (d, st') -> length st' <= k ->
    exists vars, db_variables d = Ok (map Some vars) /\
    ((forall v, In v vars -> initialized env st' v) -> ~ In input vars -> input < k -> matrix n b (env input) ->
      exists env' uss, db_pretrain Rnum fresh use INR draw same d env k input lr c = Ok (env', uss) /\
        length uss = length sizes - 1 /\ (forall i, i < k -> env' i = env i) /\
        forall j us, nth_error uss j = Some us ->
          let size := nth j (n :: sizes) 0 in
          exists machine node t env_j chain_end cost,
            nth_error (d_layers d) j = Some machine /\
            (forall i, i < k -> env_j i = env i) /\
            eval Rnum fresh use env_j node = Ok t /\ matrix size b t /\
            (forall x y, x < size -> y < b -> entry 0%R size t x y = net_value 0%R Rplus Rmult n (firstn j (belief_layers env vars sizes)) (entry 0%R n (env input)) x y) /\
            (exists env0 k0 it dist, k <= k0 /\ (forall i, i < k -> env0 i = env i) /\ rbm_chain Rnum fresh use draw machine env0 k0 node None c = Ok (env_j, chain_end, it, dist)) /\
            rbm_cost Rnum same machine node (EVar chain_end) = Ok cost /\
            map fst us = firstn 3 (skipn (3 * j) vars) /\
            forall v u, In (v, u) us -> exists delta new, geval Rnum fresh use INR env_j u = Ok delta /\ TrainSpec.tensor_sub (env v) delta = Some new /\
              fst new = fst (env v) /\ length (snd new) = length (snd (env v)) /\
              forall q, q < length (snd (env v)) -> exists slope,
                derivable_pt_lim (fun x => elem (geval Rnum fresh use INR (set_elem env_j v q x) cost) 0) (nth q (snd (env v)) 0%R) slope /\
                nth q (snd new) 0%R = (nth q (snd (env v)) 0 - lr * slope)%R).
Proof.
  intros of_nat draw same fresh use env n b sizes scope st d st' k c lr input Hd Hsame Hn Hb Hc Hl Hs E Hk.
  destruct (db_struct _ _ _ _ _ _ _ E) as (hid & cc & rs & l & vars & -> & -> & Hv & Nd & Lr & Hr & Hp & C & Pm & HL).
  exists vars. split; [exact Hv|]. intros Hi Nt Hlt Mt. unfold db_new in E. rewrite rev_app_distr in E. cbn [rev app] in E. rewrite removelast_last in E.
  destruct (db_layers_from Rnum of_nat scope n hid 0 st) as [[rs' m'] st1] eqn:El. unfold fc_new in E. cbn [fc_vars_from alloc] in E. injection E as -> El2 Es.
  destruct (layers_struct of_nat scope hid _ _ _ _ _ _ El) as (_ & _ & _ & _ & _ & vs & Y1 & _).
  unfold db_variables in Hv. cbn [d_log d_layers] in Hv. injection Hv as Hv. rewrite Y1 in Hv.
  assert (Ev : vars = vs ++ fc_variables l) by (apply some_inj; rewrite <- Hv; now rewrite map_app).
  assert (Iv : forall v, In (Some v) (flat_map rbm_variables rs) -> In v vars).
  { intros v Q. rewrite Y1 in Q. apply in_map_iff in Q. destruct Q as (v' & [= ->] & Q). rewrite Ev. apply in_or_app. now left. }
  rewrite <- app_assoc in Es. apply Forall_app in Hs. destruct Hs as [Hs1 _].
  match type of Es with st1 ++ ?x = _ => set (ext := x) in * end.
  destruct (DbPre.pre_ok of_nat draw same fresh use b c lr scope Hd Hsame Hb Hc Hl hid n 0 st rs m' st1 ext env k (EVar input) (env input) El Hn Hs1) as (env' & uss & R1 & R2 & R3 & R4).
  { rewrite Es. exact Hk. } { intros v Q. rewrite Es. auto. } { reflexivity. } { exact Mt. } { split; [eexists; split; [reflexivity|exact Mt]|exact I]. }
  { intros v Q. cbn [has_leaf] in Q. apply Nat.eqb_eq in Q. subst v. split; [exact Hlt|]. intros Q. apply Nt. auto. }
  exists env', uss. split; [exact R1|]. split; [rewrite R3, app_length; cbn; lia|]. split; [exact R2|].
  intros j us Q. destruct (R4 j us Q) as (O & r & node & tj & envj & ce & S1 & S2 & S3 & S4 & S5 & S6 & S7 & (cost & S8 & S9 & S10)).
  assert (Hj : j < length hid) by (rewrite <- R3; now apply nth_error_lt in Q).
  assert (Sz : nth j (n :: hid ++ [cc]) 0 = nth j (n :: hid) 0) by (destruct j as [|j]; [reflexivity|]; cbn [nth]; apply app_nth1; lia).
  assert (Lf : firstn j (belief_layers env vars (hid ++ [cc])) = firstn j (layers_of Rnum env (params (map lay rs)) hid (map (fun _ => logistic) hid))).
  { rewrite HL, hs_fst. unfold db_ls. rewrite flat_map_app. cbn [flat_map fst app]. rewrite app_nil_r.
    assert (El' : exists w bo, fc_variables l = [w; bo]) by (rewrite <- El2; do 2 eexists; reflexivity). destruct El' as (w & bo & ->). unfold db_gs.
    pose proof (two_params rs Hp) as Tp. rewrite DbBias.layers_app by (rewrite ?map_length; lia). rewrite firstn_app. rewrite layers_len by (rewrite ?map_length; lia). replace (j - length hid) with 0 by lia. cbn [firstn]. apply app_nil_r. }
  rewrite Sz. exists r, node, tj, envj, ce, cost. split; [exact S1|]. split; [exact S3|]. split; [exact S4|]. split; [exact S5|]. split; [rewrite Lf; exact S6|]. split; [exact S7|]. split; [exact S8|].
  assert (Mf : map fst us = firstn 3 (skipn (3 * j) vars)).
  { apply some_inj. rewrite map_map, S9, <- firstn_map, <- skipn_map, Ev, map_app, <- Y1. symmetry. now apply three_vars. }
  split; [exact Mf|].
  intros v u Hin. destruct (S10 v u Hin) as (dl & new & X). assert (Ee : envj v = env v).
  { apply S3. assert (In (Some v) (rbm_variables r)) by (rewrite <- S9; apply (in_map (fun x => Some (fst x))) in Hin; exact Hin).
    assert (In v vars) by (apply Iv, in_flat_map; exists r; split; [now apply nth_error_In in S1|assumption]). apply Hr in H0. lia. }
  rewrite Ee in X. eauto.
Qed.

(** Fine tuning: the cost of the functions is minus the mean logarithm of the outputs, the
    reported error is the mean square of the difference to the labels, and there is one step
    for every parameter. An element of a parameter that moves output sum i at the rate D i
    gets the learning rate times the sum of (share i - 1) / m times D i subtracted, where the
    slope of the cost is the sum of (share i - 1 / m) times D i: softmax's denominator takes
    part with 1 / m of its weight. *)
Lemma C61_finetune_lemma :
  forall (of_nat : nat -> R) same fresh use (env : nat -> tens R) (n b : nat) sizes scope st d st' train_in train_out lr,
    (forall a b, same a b = true -> a = b) -> (forall tA tB a b, same (GMat tA tB a b) (GMat tA tB a b) = true) -> (forall axis a b, same (GAx BAdd false axis a b) (GAx BAdd false axis a b) = true) ->
    0 < n -> 0 < b -> (0 < lr)%R -> Forall (fun h => 0 < h) sizes -> db_new Rnum of_nat n sizes scope st = Ok (d, st') ->
    exists vars, db_variables d = Ok (map Some vars) /\ NoDup vars /\
    ((forall v, In v vars -> initialized env st' v) -> ~ In train_in vars -> matrix n b (env train_in) -> fst (env train_in) = [n; b] -> matrix (last sizes 0) b (env train_out) ->
      let m := n_out sizes b in let f := fun e => logit e vars sizes n (env train_in) in
      exists cost us error tc te,
        db_finetune Rnum fresh use INR same d env train_in train_out lr = Ok (cost, us, error) /\
        geval Rnum fresh use INR env cost = Ok tc /\ snd tc = [log_cost (f env) m] /\
        geval Rnum fresh use INR env error = Ok te /\ snd te = [(Sum (fun i => (share (f env) m i - nth i (snd (env train_out)) 0) ^ 2) m / INR m)%R] /\
        map fst us = vars /\
        forall v u, In (v, u) us -> exists delta new, geval Rnum fresh use INR env u = Ok delta /\
          DqnModel.assign_sub (env v) (delta, match u with GConst _ => true | _ => false end) = Ok new /\
          fst new = fst (env v) /\ length (snd new) = length (snd (env v)) /\
          forall q, q < length (snd (env v)) -> exists D : nat -> R,
            (forall i, i < m -> derivable_pt_lim (fun x => f (set_elem env v q x) i) (nth q (snd (env v)) 0%R) (D i)) /\
            derivable_pt_lim (fun x => log_cost (f (set_elem env v q x)) m) (nth q (snd (env v)) 0%R) (Sum (fun i => (share (f env) m i - 1 / INR m) * D i) m)%R /\
            nth q (snd new) 0%R = (nth q (snd (env v)) 0 - lr * Sum (fun i => (share (f env) m i - 1) / INR m * D i) m)%R).
Proof.
  intros of_nat same fresh use env n b sizes scope st d st' ti to lr H1 H2 H3 Hn Hb Hl Hs E.
  destruct (DbStep.finetune_ok of_nat same fresh use env n b sizes scope st d st' ti to lr H1 H2 H3 Hn Hb Hl Hs E) as (vars & V1 & V2 & V3).
  exists vars. split; [exact V1|]. split; [exact V2|]. intros Hi Nt Mt St Mo. cbv zeta in V3 |- *. destruct (V3 Hi Nt Mt St Mo) as (out & t & cost & us & error & tc & te & _ & _ & _ & _ & _ & F1 & F2 & F3 & F4 & F5 & F6 & F7).
  exists cost, us, error, tc, te. split; [exact F1|]. split; [exact F2|]. split; [exact F3|]. split; [exact F4|]. split; [|split; [exact F6|]].
  - rewrite F5. f_equal. f_equal. apply NetProofs.sumR_ext. intros i Hlt. rewrite (RbmTrainProofs.at_nth' (env to) i (n_out sizes b)); [reflexivity| |exact Hlt]. apply Mo.
  - intros v u Q. exact (F7 v u Q).
Qed.

Lemma log_floor z m : 0 < m -> (ln (INR m) <= log_cost z m)%R.
Proof.
  intros Hm. assert (Np : (0 < INR m)%R) by now apply lt_0_INR. unfold log_cost.
  assert (G : forall M, M <= m -> (Sum (fun i => ln (share z m i)) M <= INR m * Sum (share z m) M - INR M - INR M * ln (INR m))%R).
  { induction M as [|M IH]; intros HM; [cbn; lra|]. specialize (IH ltac:(lia)). cbn [sumn]. rewrite S_INR.
    pose proof (DbCalc.share_pos z m M ltac:(lia)) as Sp.
    assert (L : (ln (share z m M) <= INR m * share z m M - 1 - ln (INR m))%R).
    { assert (Q : (ln (INR m * share z m M) = ln (INR m) + ln (share z m M))%R) by (now apply ln_mult).
      assert (Pp : (0 < INR m * share z m M)%R) by now apply Rmult_lt_0_compat.
      assert (B : (ln (INR m * share z m M) <= INR m * share z m M - 1)%R).
      { pose proof (exp_ineq1_le (ln (INR m * share z m M))) as B. rewrite exp_ln in B by exact Pp. lra. }
      lra. }
    lra. }
  specialize (G m (le_n m)). rewrite DbCalc.share_sum in G by exact Hm.
  apply (Rmult_le_reg_r (INR m)); [exact Np|]. unfold Rdiv. rewrite Ropp_mult_distr_l_reverse, Rmult_assoc, Rinv_l by lra. lra.
Qed.
Lemma share_flat z m i : 0 < m -> i < m -> (forall j, j < m -> z j = z 0) -> share z m i = (1 / INR m)%R.
Proof.
  intros Hm Hi Eq. unfold share. rewrite (NetProofs.sumR_ext _ (fun _ => exp (z 0))) by (intros j Hj; now rewrite Eq). rewrite (Eq i Hi). rewrite DbCalc.sum_const. assert (0 < INR m)%R by now apply lt_0_INR. pose proof (exp_pos (z 0)). field. split; lra.
Qed.
(** Finding: the cost that fine tuning watches does not depend on the labels; its least value
    is the logarithm of the number of outputs, reached when the network gives the same output
    for everything. *)
Lemma C61_cost_refuted_lemma :
  (forall (z : nat -> R) (m : nat), 0 < m -> (ln (INR m) <= log_cost z m)%R) /\
  (forall (z : nat -> R) (m : nat), 0 < m -> (forall i, i < m -> z i = z 0) -> log_cost z m = ln (INR m)) /\
  (forall (T : Type) (N : num T) fresh use of_nat same (d : db_net) (env : nat -> tens T) train_in labels labels' lr cost us error cost' us' error',
     db_finetune N fresh use of_nat same d env train_in labels lr = Ok (cost, us, error) ->
     db_finetune N fresh use of_nat same d env train_in labels' lr = Ok (cost', us', error') -> cost' = cost /\ us' = us).
Proof.
  split; [exact log_floor|]. split.
  - intros z m Hm Eq. assert (Np : (0 < INR m)%R) by now apply lt_0_INR. unfold log_cost. rewrite (NetProofs.sumR_ext _ (fun _ => ln (1 / INR m))) by (intros i Hi; now rewrite share_flat).
    rewrite DbCalc.sum_const. unfold Rdiv. rewrite Rmult_1_l, ln_Rinv by exact Np. field. lra.
  - intros T N fresh use of_nat same d env ti to to' lr cost us error cost' us' error' E E'. unfold db_finetune in E, E'.
    destruct (db_prop_up N _ d (EVar ti) _) as [out| | |]; try discriminate E. cbn [bind] in E, E'. destruct (db_cost N same out) as [co| | |]; try discriminate E. cbn [bind] in E, E'.
    destruct (db_error N same out to) as [er| | |]; try discriminate E. destruct (db_error N same out to') as [er'| | |]; try discriminate E'. cbn [bind] in E, E'.
    destruct (db_variables d) as [vs| | |]; try discriminate E. cbn [bind] in E, E'. destruct (finetune_from N fresh use of_nat same vs env lr co) as [us0| | |]; try discriminate E. cbn [bind] in E, E'. injection E as <- <- <-. injection E' as <- <- <-. auto.
Qed.

(** Finding: what is subtracted from the biases of the last layer is always negative. Whatever
    the data and the labels, each step raises each of these biases, also where all outputs
    are the same and the slope of the cost along every parameter is 0. *)
Lemma C61_bias_refuted_lemma :
  forall (of_nat : nat -> R) same fresh use (env : nat -> tens R) (n b : nat) sizes scope st d st' train_in train_out lr,
    (forall a b, same a b = true -> a = b) -> (forall tA tB a b, same (GMat tA tB a b) (GMat tA tB a b) = true) -> (forall axis a b, same (GAx BAdd false axis a b) (GAx BAdd false axis a b) = true) ->
    0 < n -> 0 < b -> (0 < lr)%R -> Forall (fun h => 0 < h) sizes -> db_new Rnum of_nat n sizes scope st = Ok (d, st') ->
    exists vars, db_variables d = Ok (map Some vars) /\
    ((forall v, In v vars -> initialized env st' v) -> ~ In train_in vars -> matrix n b (env train_in) -> fst (env train_in) = [n; b] -> matrix (last sizes 0) b (env train_out) -> 1 < n_out sizes b ->
      let m := n_out sizes b in let f := fun e => logit e vars sizes n (env train_in) in
      exists cost us error u delta new,
        db_finetune Rnum fresh use INR same d env train_in train_out lr = Ok (cost, us, error) /\ In (last vars 0, u) us /\
        geval Rnum fresh use INR env u = Ok delta /\ DqnModel.assign_sub (env (last vars 0)) (delta, match u with GConst _ => true | _ => false end) = Ok new /\
        length (snd (env (last vars 0))) = last sizes 0 /\
        (forall q, q < last sizes 0 -> (nth q (snd (env (last vars 0%nat))) 0 < nth q (snd new) 0)%R) /\
        ((forall i, i < m -> f env i = f env 0) -> forall v q, In v vars -> q < length (snd (env v)) ->
           derivable_pt_lim (fun x => log_cost (f (set_elem env v q x)) m) (nth q (snd (env v)) 0%R) 0%R)).
Proof.
  intros of_nat same fresh use env n b sizes scope st d st' ti to lr H1 H2 H3 Hn Hb Hl Hs E.
  destruct (C61_finetune_lemma of_nat same fresh use env n b sizes scope st d st' ti to lr H1 H2 H3 Hn Hb Hl Hs E) as (vars & V1 & V2 & V3).
  destruct (db_struct _ _ _ _ _ _ _ E) as (hid & c & rs & l & vars' & -> & -> & Hv & _ & Lr & Hr & Hp & C & Pm & HL).
  rewrite Hv in V1. injection V1 as V1. apply some_inj in V1. subst vars'.
  exists vars. split; [exact Hv|]. intros Hi Nt Mt St Mo Hm. cbv zeta in V3 |- *. destruct (V3 Hi Nt Mt St Mo) as (cost & us & error & tc & te & F1 & _ & _ & _ & _ & F6 & F7).
  assert (Hvs : exists vs w bo, vars = vs ++ [w; bo] /\ fc_variables l = [w; bo] /\ (exists v, deref st' bo = Ok v /\ v_shape v = [c])).
  { unfold db_new in E. rewrite rev_app_distr in E. cbn [rev app] in E. rewrite removelast_last in E.
    destruct (db_layers_from Rnum of_nat scope n hid 0 st) as [[rs' m'] st1] eqn:El. unfold fc_new in E. cbn [fc_vars_from alloc] in E. injection E as -> El2 Es.
    destruct (layers_struct of_nat scope hid _ _ _ _ _ _ El) as (_ & _ & _ & _ & _ & vs & Y1 & _).
    unfold db_variables in Hv. cbn [d_log d_layers] in Hv. injection Hv as Hv. rewrite Y1 in Hv.
    assert (Ev : vars = vs ++ fc_variables l) by (apply some_inj; rewrite <- Hv; now rewrite map_app).
    rewrite <- El2 in Ev |- *. do 3 eexists. split; [exact Ev|]. split; [reflexivity|]. rewrite <- Es. eexists.
    split; [unfold deref; rewrite nth_error_app2 by (rewrite ?app_length; cbn; lia); rewrite Nat.sub_diag; cbn; reflexivity|reflexivity]. }
  destruct Hvs as (vs & w & bo & Ev & Ef & v0 & Dv & Sv).
  assert (Lv : last vars 0 = bo) by (rewrite Ev; change [w; bo] with ([w] ++ [bo]); now rewrite app_assoc, last_last).
  rewrite Lv. assert (Ib : In bo vars) by (rewrite Ev; apply in_or_app; right; right; now left).
  rewrite <- F6 in Ib. apply in_map_iff in Ib. destruct Ib as ([v u] & Q & Iu). cbn [fst] in Q. subst v.
  destruct (F7 bo u Iu) as (delta & new & G1 & G2 & G3 & G4 & G5). exists cost, us, error, u, delta, new. split; [exact F1|]. split; [exact Iu|]. split; [exact G1|]. split; [exact G2|].
  unfold n_out in *. rewrite last_last in *.
  assert (Lb : length (snd (env bo)) = c).
  { destruct (Hi bo) as (v & D1 & D2 & D3); [rewrite <- F6; now apply (in_map fst) in Iu|]. rewrite Dv in D1. injection D1 as <-. rewrite D3, Sv. cbn. lia. }
  assert (Ep : params (db_ls rs l) = params (map lay rs) ++ [w; bo]) by (unfold db_ls; rewrite flat_map_app; cbn [flat_map fst]; now rewrite app_nil_r, Ef).
  assert (Np : NoDup (params (map lay rs) ++ [w; bo])) by (rewrite <- Ep; apply (DbStep.nodup_left _ (visible_biases vars)); apply (Permutation_NoDup Pm V2)).
  assert (Nb : ~ In bo (params (map lay rs))).
  { change [w; bo] with ([w] ++ [bo]) in Np. rewrite app_assoc in Np. apply NoDup_remove_2 in Np. rewrite app_nil_r in Np. intros Q. apply Np, in_or_app. now left. }
  assert (Nw : w <> bo).
  { change [w; bo] with ([w] ++ [bo]) in Np. rewrite app_assoc in Np. apply NoDup_remove_2 in Np. rewrite app_nil_r in Np. intros ->. apply Np, in_or_app. right. now left. }
  assert (Lp : length (params (map lay rs)) = 2 * length hid) by (rewrite two_params; auto; lia).
  assert (HL' : forall e, belief_layers e vars (hid ++ [c]) = layers_of Rnum e (params (map lay rs) ++ [w; bo]) (hid ++ [c]) (db_gs hid)) by (intros e; rewrite HL, hs_fst, Ep; reflexivity).
  assert (Hc : 0 < c) by nia.
  split; [exact Lb|]. split.
  - intros q Hq. destruct (G5 q ltac:(lia)) as (D & D1 & D2 & D3). rewrite D3.
    assert (B : (Sum (fun i => (share (logit env vars (hid ++ [c]) n (env ti)) (c * b) i - 1) / INR (c * b) * D i) (c * b) < 0)%R).
    { apply (DbBias.bias_sum b hid c _ w bo env Lp Nw Lb Hc _ _ q (c * b) Hq eq_refl Hm).
      - intros i Hlt. now apply DbCalc.share_less.
      - intros i Hlt. apply (DbBias.bias_slope n hid c vars (params (map lay rs)) w bo env Lp HL' Nb Nw Lb Hc (env ti) q i (D i) Hq). now apply D1. }
    assert ((lr * Sum (fun i => (share (logit env vars (hid ++ [c]) n (env ti)) (c * b) i - 1) / INR (c * b) * D i) (c * b) < 0)%R) by nra. lra.
  - intros Eq v q Hin Hq. rewrite <- F6 in Hin. apply in_map_iff in Hin. destruct Hin as ([v' u'] & Q & Iu'). cbn [fst] in Q. subst v'.
    destruct (F7 v u' Iu') as (? & ? & _ & _ & _ & _ & Z). destruct (Z q Hq) as (D & _ & D2 & _).
    eapply GradProofs.lim_val; [|exact D2]. rewrite (NetProofs.sumR_ext _ (fun _ => 0%R)).
    + rewrite DbCalc.sum_const. ring.
    + intros i Hlt. cbv beta. rewrite share_flat; [ring|lia|exact Hlt|exact Eq].
Qed.

Definition same_gtree (a b : @gexpr R) : bool := if excluded_middle_informative (a = b) then true else false.
(** Hypotheses met: two inputs, one hidden layer of one unit, two outputs, a batch of two, for
    values where the outputs differ. *)
Lemma C61_nonvacuous_lemma :
  exists (env : nat -> tens R) (d : db_net) (st' : store) (same : @gexpr R -> @gexpr R -> bool),
    (forall a b, same a b = true -> a = b) /\ (forall tA tB a b, same (GMat tA tB a b) (GMat tA tB a b) = true) /\ (forall axis a b, same (GAx BAdd false axis a b) (GAx BAdd false axis a b) = true) /\
    binomial (fun _ n p => if Req_EM_T p 1 then n else 0%R) /\
    db_new Rnum INR 2 [1; 2] "d"%string [] = Ok (d, st') /\ db_variables d = Ok (map Some [0; 1; 2; 3; 4]) /\ length st' <= 7 /\
    (forall v, In v [0; 1; 2; 3; 4] -> initialized env st' v) /\ matrix 2 2 (env 5) /\ fst (env 5) = [2; 2] /\ matrix (last [1; 2] 0) 2 (env 6) /\ 1 < n_out [1; 2] 2 /\
    share (logit env [0; 1; 2; 3; 4] [1; 2] 2 (env 5)) 4 1 <> share (logit env [0; 1; 2; 3; 4] [1; 2] 2 (env 5)) 4 0.
Proof.
  exists (fun k : nat => match k with 0 => ([1; 2], [0%R; 0%R]) | 1 => ([1], [0%R]) | 2 => ([2], [0%R; 1%R]) | 3 => ([2; 1], [0%R; 0%R]) | 4 => ([2], [0%R; 1%R]) | _ => ([2; 2], [0%R; 1%R; 1%R; 0%R]) end : tens R).
  do 2 eexists. exists same_gtree.
  split; [intros a b; unfold same_gtree; destruct (excluded_middle_informative _); congruence|].
  split; [intros; unfold same_gtree; destruct (excluded_middle_informative _); congruence|].
  split; [intros; unfold same_gtree; destruct (excluded_middle_informative _); congruence|].
  split.
  { intros i n p Hp. destruct (Req_EM_T p 1) as [->|Hn].
    + exists n. split; [lia|]. split; [reflexivity|]. split; [lra|reflexivity].
    + exists 0. split; [lia|]. split; [reflexivity|]. split; [reflexivity|contradiction]. }
  split; [reflexivity|]. split; [reflexivity|]. split; [cbn; lia|].
  split; [intros v [<-|[<-|[<-|[<-|[<-|[]]]]]]; eexists; (split; [reflexivity|split; reflexivity])|].
  split; [repeat split; auto; lia|]. split; [reflexivity|]. change (last [1; 2] 0) with 2. split; [repeat split; auto; lia|]. split; [cbn; lia|].
  match goal with |- share ?z 4 1 <> _ => assert (Z0 : z 0 = 0%R) by (unfold logit; cbn; unfold dense, entry; cbn; ring); assert (Z1 : z 1 = 1%R) by (unfold logit; cbn; unfold dense, entry; cbn; ring) end.
  unfold share. rewrite Z0, Z1. intros Q. unfold Rdiv in Q. apply Rmult_eq_reg_r in Q.
  - apply exp_inv in Q. lra.
  - apply Rinv_neq_0_compat. pose proof (DbCalc.sum_exp_pos (logit (fun k : nat => match k with 0 => ([1; 2], [0%R; 0%R]) | 1 => ([1], [0%R]) | 2 => ([2], [0%R; 1%R]) | 3 => ([2; 1], [0%R; 0%R]) | 4 => ([2], [0%R; 1%R]) | _ => ([2; 2], [0%R; 1%R; 1%R; 0%R]) end : tens R) [0; 1; 2; 3; 4] [1; 2] 2 ([2; 2], [0%R; 1%R; 1%R; 0%R])) 4 ltac:(lia)). apply Rgt_not_eq. assumption.
Qed.
