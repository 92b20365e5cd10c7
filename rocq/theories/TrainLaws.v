(** Laws of training. *)
From Coq Require Import String Reals Lra Lia FunctionalExtensionality Permutation.
From Verif Require Import Common ShapeModel ShapeProofs ElemModel ElemProofs NumSpec RealNum GradModel GradSpec GradProofs MatrixSpec MlpModel MlpLaws NetSpec NetMlpProofs NetLaws EvalModel EvalSpec EvalProofs EvalLaws UpdaterModel UpdaterSpec UpdaterLaws TrainModel TrainSpec TrainProofs TrainSymProofs.

(** ================= C51 ================= *)

Local Open Scope R_scope.
Lemma scaled fresh use env lr Y Z y s : 0 < lr -> mk_unary Rnum (UMulR lr) Y = Ok Z -> (forall t, Z <> EConst t) -> eval Rnum fresh use env Y = Ok y -> fits s y ->
  exists z, eval Rnum fresh use env Z = Ok z /\ snd z = map (fun v => v * lr) (snd y).
Proof.
  intros Hl Hz Hc Hy (F1 & F2 & _).
  assert (N0 : Reqb 0 lr = false) by (apply not_true_is_false; intros C; apply Reqb_iff in C; lra).
  assert (N1 : Reqb (Ropp 1) lr = false) by (apply not_true_is_false; intros C; apply Reqb_iff in C; lra).
  assert (K : forall e, eval Rnum fresh use env e = Ok y -> exists z, eval Rnum fresh use env (EUn (UMulR lr) e) = Ok z /\ snd z = map (fun v => v * lr) (snd y)).
  { intros e He. cbn [eval]. rewrite He. cbn [bind]. rewrite unary_ok by (split; auto). eexists. split; [reflexivity|]. reflexivity. }
  cbn [mk_unary] in Hz. cbn [n_eqb n_zero n_one n_neg Rnum] in Hz. rewrite N0, N1, ?orb_false_r in Hz.
  destruct (Reqb 1 lr) eqn:E1.
  - apply Reqb_iff in E1. subst lr.
    assert (X : map (fun v => v * 1) (snd y) = snd y) by (rewrite <- (map_id (snd y)) at 2; apply map_ext; intros; lra). rewrite X in *.
    destruct Y; try (injection Hz as <-; now exists y).
    exfalso. destruct (const_is Rnum t 0); [injection Hz as <-; now apply (Hc (const_scalar 0))|]. destruct (const_is Rnum t 1); [injection Hz as <-; now apply (Hc (const_scalar 1))|]. cbn [fold_node] in Hz. injection Hz as <-. now eapply Hc.
  - destruct Y; try (injection Hz as <-; now apply K).
    exfalso. destruct (const_is Rnum t 0); [injection Hz as <-; now apply (Hc (const_scalar 0))|]. destruct (const_is Rnum t 1); [injection Hz as <-; now apply (Hc (const_scalar lr))|]. cbn [fold_node] in Hz. injection Hz as <-. now eapply Hc.
Qed.

Lemma at_minus (a b : list R) lr k sa sb sc : length b = length a -> (k < length a)%nat ->
  at_ (sa, map (fun p => fst p - snd p) (combine a (map (fun v => v * lr) b))) k = at_ (sb, a) k - lr * at_ (sc, b) k.
Proof.
  intros L Hk. assert (G : forall (a b : list R) k, length b = length a -> (k < length a)%nat ->
    nth k (map (fun p => fst p - snd p) (combine a (map (fun v => v * lr) b))) 0 = nth k a 0 - lr * nth k b 0).
  { clear. induction a as [|x a IH]; intros [|y b] k L Hk; cbn in *; try lia. destruct k as [|k]; [ring|]. apply IH; lia. }
  unfold at_. cbn [snd]. destruct a as [|x [|x' a]]; destruct b as [|y [|y' b]]; cbn [length] in *; try lia; [cbn; ring|].
  cbn [map combine]. apply (G (x :: x' :: a) (y :: y' :: b)); cbn; auto.
Qed.

(** Training a new mlp of any sizes with a batch of any size is gradient descent. The graph
    may have been used in any way before; its leaves [loc v] hold the variables and
    placeholders; every parameter has exactly one update, whose node is the one the vanilla
    updater builds: the gradient of the squared error times the learning rate. If train
    returns, every parameter has kept its shape and each of its elements has been decreased by
    the learning rate times the derivative of the summed squared error by that element, at the
    inputs given and the parameters before the call. Other variables are left alone. *)
Lemma C51_gradient_descent_lemma :
  forall fresh use same of_nat (n r c : nat) (hs : list (nat * @act R)) scope st m st' compat ord top A lr loc s train_in expected x y error updates s' E,
    node_identity same -> valid_order ord -> valid_top top -> (forall a b, sub_ A a b = tensor_sub a b) -> 0 < lr ->
    (0 < n)%nat -> (0 < r)%nat -> Forall (fun h => (0 < fst h)%nat /\ smooth_act same (snd h)) hs ->
    mlp_new Rnum of_nat n hs scope st = (m, st') -> m_nout m = Some c ->
    let env := fed_env loc s train_in expected x y in
    (forall q, In q (mlp_variables m) -> initialized env st' q) ->
    matrix n r x -> fst x = [n; r] -> matrix c r y ->
    train_in <> expected -> ~ In train_in (mlp_variables m) -> ~ In expected (mlp_variables m) ->
    gd_error Rnum same (CMlp m) train_in expected [n; r] = Ok E ->
    history compat ord top s -> (forall u v, loc u = loc v -> u = v) -> (forall v, is_op (nodes s) (loc v) = false) ->
    NoDup (map fst updates) -> (forall p, In p (mlp_variables m) -> In (loc p) (map fst updates)) ->
    (forall w k, In (w, k) updates -> connected s k error /\
       exists p Y Z, In p (mlp_variables m) /\ w = loc p /\ derive Rnum fresh use same env p E = Ok Y /\ mk_unary Rnum (UMulR lr) Y = Ok Z /\ shows Rnum fresh use loc s k Z) ->
    net_train compat ord top A s (loc train_in) (loc expected) error updates x y = Done s' tt ->
    (forall p, In p (mlp_variables m) -> exists old new, val s (loc p) = Some old /\ val s' (loc p) = Some new /\
       fst new = fst old /\ length (snd new) = length (snd old) /\
       forall k, (k < length (snd old))%nat -> exists D,
         derivable_pt_lim (fun v => total (eval Rnum fresh use (set_elem env p k v) E)) (at_ old k) D /\
         at_ new k = at_ old k - lr * D) /\
    (forall v, leaf s (loc v) -> ~ In v (mlp_variables m) -> v <> train_in -> v <> expected -> val s' (loc v) = val s (loc v)).
Proof.
  intros fresh use same of_nat n r c hs scope st m st' compat ord top A lr loc s ti ex x y err ups s' E Hs Ho Ht HA Hlr Hn Hr Ha Hm Hc env Hi Mx Sx My Ne Nt Nx HE Hh Inj Nop Nd Hup Hn2 Et.
  destruct (train_ok compat ord top Ho Ht A s (loc ti) (loc ex) err ups x y s' Hh Nd (fun w k Hk => proj1 (Hn2 w k Hk)) Et) as (H' & F & s0 & H0 & (N0 & V1 & V2 & V3) & N & U & D).
  assert (Nlt : forall v, leaf s (loc v) \/ val s (loc v) = None /\ val s0 (loc v) = None).
  { intros v. specialize (Nop v). unfold is_op in Nop. destruct (nth_error (nodes s) (loc v)) as [[|]|] eqn:Hv; [now left|discriminate|right].
    apply nth_error_None in Hv. assert (W : forall t, WF t -> nodes t = nodes s -> val t (loc v) = None).
    { intros t W Et'. unfold val. replace (nth_error (vals t) (loc v)) with (@None (option (tens R))); [reflexivity|]. symmetry. apply nth_error_None. rewrite (wf_vals _ W), Et'. exact Hv. }
    split; apply W; auto; [apply (h_Good compat ord top Ho Ht s Hh)|apply (h_Good compat ord top Ho Ht s0 H0)]. }
  assert (Henv : leaf_env loc s0 = env).
  { apply functional_extensionality. intros v. unfold env, fed_env, leaf_env.
    destruct (Nat.eqb_spec v ti) as [->|Nv1]; [rewrite V2; [reflexivity|intros C; apply Inj in C; contradiction]|].
    destruct (Nat.eqb_spec v ex) as [->|Nv2]; [now rewrite V1|].
    destruct (Nlt v) as [L|[L1 L2]]; [|now rewrite L1, L2]. rewrite V3; auto; intros C; apply Inj in C; contradiction. }
  assert (Cst : forall l, leaf s l -> (forall v, loc v <> l) -> val s0 l = val s l).
  { intros l Hl Hv. apply V3; auto; intros ->; now apply (Hv _ eq_refl). }
  split.
  - intros p Hp. pose proof (Hup p Hp) as Hi'. apply in_map_iff in Hi' as ([w k] & Ew & Hi'). cbn [fst] in Ew. subst w.
    destruct (Hn2 _ _ Hi') as (Hcn & p' & Y & Z & Hp' & Ep & HY & HZ & Sh). apply Inj in Ep. subst p'.
    assert (Mt : matrix n r (env ti)) by (unfold env, fed_env; now rewrite Nat.eqb_refl).
    assert (St : fst (env ti) = [n; r]) by (unfold env, fed_env; now rewrite Nat.eqb_refl).
    assert (Me : matrix c r (env ex)) by (unfold env, fed_env; rewrite Nat.eqb_refl; destruct (Nat.eqb_spec ex ti) as [C|C]; [congruence|exact My]).
    destruct (C37_training_gradient_lemma fresh use same of_nat env n r c hs scope st m st' ti ex p Hs Hn Hr Ha Hm Hc Hi Mt St Me Nt Nx Hp) as (E' & g & HE' & ((Y' & HY' & Ev) & Fg & Lg & Dg)).
    rewrite HE in HE'. injection HE' as <-. rewrite HY in HY'. injection HY' as <-.
    destruct (D _ _ Hi') as (Lw & d & old & new & X1 & X2 & X3 & X4).
    assert (Np : loc p <> loc ti /\ loc p <> loc ex) by (split; intros C; apply Inj in C; subst; contradiction).
    assert (Ep : env p = old). { rewrite <- Henv. unfold leaf_env. now rewrite X2. }
    assert (X2' : val s (loc p) = Some old) by (rewrite <- X2; symmetry; apply V3; tauto).
    assert (Sh0 : shows Rnum fresh use loc s0 k Z) by (apply (shows_nodes fresh use loc s s0 N0 Cst); exact Sh).
    pose proof (shows_eval fresh use loc s0 Z k d Sh0 X1) as Ez. rewrite Henv in Ez.
    assert (Nz : forall t, Z <> EConst t).
    { intros t ->. destruct Sh as (Lk & _). destruct Hcn as (c0 & a0 & f0 & Ho0 & Ua & _). inversion Ua as [|v a1 f1 b1 b2 [d1 Hd1]]; subst; [destruct Ho0 as [d0 Ho0]|]; unfold leaf in *; congruence. }
    destruct (scaled fresh use env lr Y Z g _ Hlr HZ Nz Ev Fg) as (z & Ez' & Lz). rewrite Ez in Ez'. injection Ez' as <-.
    rewrite HA in X3. unfold tensor_sub in X3. rewrite Lz, map_length, Lg, Ep, Nat.eqb_refl in X3. injection X3 as <-.
    exists old. eexists. split; [exact X2'|]. split; [exact X4|]. cbn [fst snd]. split; [reflexivity|].
    rewrite Ep in *. split; [rewrite map_length, combine_length, map_length, Lg; lia|]. intros k' Hk'. exists (at_ g k'). split; [now apply Dg|].
    destruct old as [so lo], g as [sg lg]. cbn [fst snd] in *. apply (at_minus lo lg lr k' so so sg Lg Hk').
  - intros v Hv Np Nv1 Nv2. rewrite U; [|exact Hv|].
    + apply V3; auto; intros C; apply Inj in C; contradiction.
    + intros C. apply in_map_iff in C as ([w k] & Ew & Hk). cbn [fst] in Ew. subst w. destruct (Hn2 _ _ Hk) as (_ & p & Y & Z & Hp & Ep & _). apply Inj in Ep. subst p. contradiction.
Qed.

(** Calling the net. The graph may have been used in any way before, training included; node
    [test_out], not frozen, is the root of the net's output for the test placeholder. If the
    call returns a value, it is the value of that expression for the given input and the
    parameters as they are, and no variable but the placeholder changes. *)
Lemma C51_call_lemma :
  forall fresh use same brain compat ord top loc s test_in test_out shape x t s' E,
    valid_order ord -> valid_top top -> history compat ord top s -> is_frozen s test_out = false ->
    (forall u v, loc u = loc v -> u = v) -> (forall v, is_op (nodes s) (loc v) = false) ->
    gd_output Rnum same brain test_in shape = Ok E -> shows Rnum fresh use loc s test_out E ->
    net_call compat ord top s (loc test_in) test_out x = Done s' (Some t) ->
    eval Rnum fresh use (fun v => if v =? test_in then x else leaf_env loc s v)%nat E = Ok t /\
    history compat ord top s' /\ nodes s' = nodes s /\ val s' (loc test_in) = Some x /\
    forall v, leaf s v -> v <> loc test_in -> val s' v = val s v.
Proof.
  intros fresh use same brain compat ord top loc s ti out shape x t s' E Ho Ht Hh F Inj Nop _ Sh Ec. unfold net_call in Ec.
  destruct (EvalModel.step compat ord top s (EAssign (loc ti) x true)) as [s1 r|s1|] eqn:E1; try discriminate. cbn [obind] in Ec.
  pose proof (h_step compat ord top s (EAssign (loc ti) x true) s1 r Hh eq_refl E1) as H1.
  destruct (assign_val compat ord top Ho Ht s (loc ti) x true s1 r (proj1 (h_Good compat ord top Ho Ht s Hh)) E1) as (L & V & N & U).
  assert (F1 : is_frozen s1 out = false) by (rewrite (assign_frozen compat ord top Ho Ht s (loc ti) x s1 r out Hh E1); exact F).
  pose proof (h_step compat ord top s1 (EEval out) s' (Some t) H1 Logic.I Ec) as H2.
  assert (W1 : WF s1) by apply (h_Good compat ord top Ho Ht s1 H1).
  destruct H1 as [ops [Rn P]].
  destruct (C29_eval_is_current_lemma _ compat ord top ops s1 out s' (Some t) Ho Ht Rn P F1 Ec) as (D & N2 & V2).
  assert (Lf : forall v, leaf s v -> leaf s1 v) by (intros v; unfold leaf; now rewrite N).
  assert (Sh1 : shows Rnum fresh use loc s1 out E).
  { apply (shows_nodes fresh use loc s s1 N); [|exact Sh]. intros n Hn Hv. apply U; [exact Hn|]. intros ->. now apply (Hv ti). }
  pose proof (shows_eval fresh use loc s1 E out t Sh1 D) as Ev.
  split; [|split; [exact H2|split; [congruence|split; [rewrite V2; auto|intros v Hv Hne; rewrite V2; auto]]]].
  rewrite <- Ev. f_equal. apply functional_extensionality. intros v. unfold leaf_env.
  destruct (Nat.eqb_spec v ti) as [->|Nv]; [now rewrite V|].
  specialize (Nop v). unfold is_op in Nop. destruct (nth_error (nodes s) (loc v)) as [[|]|] eqn:Hv; [|discriminate|].
  - rewrite U; [reflexivity|exact Hv|]. intros C. apply Inj in C. contradiction.
  - apply nth_error_None in Hv. assert (Q : forall t, WF t -> nodes t = nodes s -> val t (loc v) = None).
    { intros t' W Et'. unfold val. replace (nth_error (vals t') (loc v)) with (@None (option (tens R))); [reflexivity|]. symmetry. apply nth_error_None. rewrite (wf_vals _ W), Et'. exact Hv. }
    rewrite (Q s), (Q s1); auto. apply (h_Good compat ord top Ho Ht s Hh).
Qed.


Lemma R02 : Reqb 0 2 = false. Proof. apply (Reqb_no 0 2); lra. Qed.
Lemma R12 : Reqb 1 2 = false. Proof. apply (Reqb_no 1 2); lra. Qed.
Lemma Rm2 : Reqb (Ropp 1) 2 = false. Proof. apply (Reqb_no (Ropp 1) 2); lra. Qed.
Lemma same_tree_refl a : same_tree a a = true.
Proof. unfold same_tree. destruct (ClassicalDescription.excluded_middle_informative _); congruence. Qed.
Lemma small_loc_inj u v : small_loc u = small_loc v -> u = v.
Proof. unfold small_loc. destruct (Nat.ltb_spec u 4), (Nat.ltb_spec v 4); lia. Qed.

(** The net of one input, one output and no activation function, weight 3 and bias 1, learning
    rate 1/4: training on input 2 and expected output 5 - the output is 7, the squared error 4,
    its derivatives by weight and bias 8 and 4 - makes the weight 1 and the bias 0. All
    hypotheses of C51_gradient_descent hold. *)
Lemma C51_nonvacuous_lemma : forall fresh use, exists (m : @mlp R) st (s s' : estate (tens R)) A E,
  let loc := small_loc in let x := ([1; 1]%nat, [2]) in let y := ([1; 1]%nat, [5]) in
  let env := fed_env loc s 2 3 x y in let updates := [(0, 14); (1, 17)]%nat in
  node_identity same_tree /\ valid_order (@audience (tens R)) /\ valid_top (@least (tens R)) /\ (forall a b, sub_ A a b = tensor_sub a b) /\
  Forall (fun h => (0 < fst h)%nat /\ smooth_act same_tree (snd h)) [(1%nat, mk_id)] /\
  mlp_new Rnum INR 1 [(1%nat, mk_id)] "net"%string [] = (m, st) /\ m_nout m = Some 1%nat /\
  (forall q, In q (mlp_variables m) -> initialized env st q) /\
  matrix 1 1 x /\ matrix 1 1 y /\ ~ In 2%nat (mlp_variables m) /\ ~ In 3%nat (mlp_variables m) /\
  gd_error Rnum same_tree (CMlp m) 2 3 [1; 1]%nat = Ok E /\
  history (fun _ _ => true) audience least s /\ (forall u v, loc u = loc v -> u = v) /\ (forall v, is_op (nodes s) (loc v) = false) /\
  NoDup (map fst updates) /\ (forall p, In p (mlp_variables m) -> In (loc p) (map fst updates)) /\
  (forall w k, In (w, k) updates -> connected s k 7 /\
     exists p Y Z, In p (mlp_variables m) /\ w = loc p /\ derive Rnum fresh use same_tree env p E = Ok Y /\ mk_unary Rnum (UMulR (1 / 4)) Y = Ok Z /\ shows Rnum fresh use loc s k Z) /\
  net_train (fun _ _ => true) audience least A s (loc 2%nat) (loc 3%nat) 7 updates x y = Done s' tt /\
  val s 0 = Some ([1; 1]%nat, [3]) /\ val s 1 = Some ([1]%nat, [1]) /\
  val s' 0 = Some ([1; 1]%nat, [1]) /\ val s' 1 = Some ([1]%nat, [0]).
Proof.
  intros fresh use.
  destruct (small_runs 0 1 2 Rplus Rminus Rmult Rdiv Ropp Rabs sin cos tan exp sqrt Rround ln Rpow Reqb Rltb fresh use 3 1 (1 / 4) 2 5 (Reqb_yes _)) as (s & s' & Rn & T & Hn & V0 & V1 & W0 & W1).
  destruct (small_net 0 1 2 Rplus Rminus Rmult Rdiv Ropp Rabs sin cos tan exp sqrt Rround ln Rpow Reqb Rltb same_tree (proj1 same_tree_identity) same_tree_refl R20 R21 INR) as (m & st & M & Mv & Mo & Me & I0 & I1).
  destruct (small_shows 0 1 2 Rplus Rminus Rmult Rdiv Ropp Rabs sin cos tan exp sqrt Rround ln Rpow Reqb Rltb fresh use s (1 / 4) Hn) as (S0 & S1 & C0 & C1).
  pose proof (small_dw_ok 0 1 2 Rplus Rminus Rmult Rdiv Ropp Rabs sin cos tan exp sqrt Rround ln Rpow Reqb Rltb fresh use same_tree (proj1 same_tree_identity) R01 R10 (fun x => Reqb_yes x) R20 R21 R02 R12 Rm2) as Dw.
  pose proof (small_db_ok 0 1 2 Rplus Rminus Rmult Rdiv Ropp Rabs sin cos tan exp sqrt Rround ln Rpow Reqb Rltb fresh use same_tree (proj1 same_tree_identity) R01 R10 (fun x => Reqb_yes x) R20 R21 R02 R12 Rm2) as Db.
  assert (Q0 : forall a b, a <> b -> Reqb a b = false) by (intros a b H; exact (Reqb_no a b H)).
  specialize (Dw ltac:(lra)). specialize (Db ltac:(lra)). do 6 (match type of Db with ?P -> _ => let H := fresh in assert (H : P) by (first [apply Q0; intros C; lra | intros C; lra]); specialize (Db H); clear H end).
  fold Rnum in *. cbv zeta in W0, W1.
  assert (L : forall v, is_op (nodes s) (small_loc v) = false).
  { intros v. rewrite Hn. unfold small_loc. destruct (Nat.ltb_spec v 4) as [Hv|Hv]; [destruct v as [|[|[|[|v]]]]; try lia; reflexivity|].
    unfold is_op. rewrite (proj2 (nth_error_None _ _)); [reflexivity|]. cbn [length small_nodes]. lia. }
  assert (En : let env := fed_env small_loc s 2 3 ([1; 1]%nat, [2]) ([1; 1]%nat, [5]) in env 0%nat = ([1; 1]%nat, [3]) /\ env 1%nat = ([1]%nat, [1]) /\ env 2%nat = ([1; 1]%nat, [2]) /\ env 3%nat = ([1; 1]%nat, [5])).
  { cbv zeta. unfold fed_env, leaf_env. cbn [Nat.eqb small_loc Nat.ltb Nat.leb]. rewrite V0, V1. auto. }
  cbv zeta in En. destruct En as (N0 & N1 & N2 & N3).
  assert (K : forall Y, (forall t, Y <> EConst t) -> mk_unary Rnum (UMulR (1 / 4)) Y = Ok (EUn (UMulR (1 / 4)) Y)).
  { intros Y HY. assert (Q : forall v, v <> 1 / 4 -> Reqb v (1 / 4) = false) by (intros v Hv; now apply (Reqb_no v (1 / 4))).
    destruct Y; try (now destruct (HY _ eq_refl)); cbn [mk_unary n_eqb n_zero n_one n_neg Rnum]; rewrite !Q by (try intros C; lra); reflexivity. }
  exists m, st, s, s'. eexists. exists (small_error Rnum). cbv zeta. rewrite Mv.
  split; [exact same_tree_identity|]. split; [apply audience_valid|]. split; [apply least_valid|].
  assert (HA : forall a b, sub_ (small_arith Rminus) a b = tensor_sub a b) by reflexivity.
  split; [exact HA|].
  split; [constructor; [split; [cbn; lia|constructor]|constructor]|]. split; [exact M|]. split; [exact Mo|].
  split.
  { intros q [<-|[<-|[]]]; [destruct I0 as (v & Dv & Sv)|destruct I1 as (v & Dv & Sv)]; exists v; rewrite Sv, ?N0, ?N1; auto. }
  split; [repeat split; auto|]. split; [repeat split; auto|]. split; [cbn; lia|]. split; [cbn; lia|]. split; [exact Me|].
  split; [eexists; split; [exact Rn|repeat constructor]|]. split; [exact small_loc_inj|]. split; [exact L|].
  split; [repeat constructor; cbn; lia|]. split; [intros p [<-|[<-|[]]]; cbn; auto|].
  split.
  { intros w k [Hi|[Hi|[]]]; injection Hi as <- <-.
    - split; [exact C0|]. exists 0%nat. do 2 eexists. split; [now left|]. split; [reflexivity|]. split; [exact (Dw _ _ _ _ _ N0 N1 N2 N3)|]. split; [apply K; discriminate|exact S0].
    - split; [exact C1|]. exists 1%nat. do 2 eexists. split; [right; now left|]. split; [reflexivity|]. split; [exact (Db _ _ _ _ _ N0 N1 N2 N3)|]. split; [apply K; discriminate|exact S1]. }
  split; [exact T|]. split; [exact V0|]. split; [exact V1|]. split; [rewrite W0|rewrite W1]; do 3 f_equal; field.
Qed.
