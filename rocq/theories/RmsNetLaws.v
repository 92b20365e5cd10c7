(** Laws of training with RMSprop. *)
From Coq Require Import String Reals Lra Lia FunctionalExtensionality.
From Verif Require Import Common ShapeModel ShapeProofs ElemModel ElemProofs NumSpec RealNum GradModel GradSpec GradProofs MatrixSpec MlpModel MlpLaws NetSpec NetMlpProofs NetLaws EvalModel EvalSpec EvalProofs EvalLaws UpdaterModel UpdaterSpec UpdaterLaws TrainModel TrainSpec TrainProofs TrainSymProofs TrainLaws CallSpec CallProofs RmsNetSym RmsNetModel RmsNetSpec RmsNetProofs.
From Verif Require RbmTrainProofs.

(** ================= C65 ================= *)

(** A training call of a net with RMSprop updaters, whatever happened before: any number of
    updaters [L] built at any time, any number of training calls before this one. [l] are the
    updaters of this call, on different variables; their gradient nodes are in the error's
    graph and do not depend on momenta. If the call returns, every momentum is
    discount * (its initial value) + (1 - discount) * gradient^2 - whatever its value was
    before -, every variable has been decreased by
    gradient * rate / (sqrt(momentum) + epsilon), where all the gradients are those at the
    state [s0], in which the placeholders hold the batch and nothing else has changed. All
    other leaves keep their values, the error is not frozen. *)
Lemma C65_training_lemma :
  forall V compat ord top (A : arith V) L (l : list (rms_up V)) s i o e x y s',
    valid_order ord -> valid_top top ->
    rms_history compat ord top A L s -> incl l L -> NoDup (map rm_var l) -> ~ In i (map rm_mom L) -> ~ In o (map rm_mom L) ->
    (forall u, In u l -> linked s (rm_grad u) e /\ forall u', In u' L -> ~ upstream s (rm_mom u') (rm_grad u)) ->
    net_train_rms compat ord top A s i o e (map (fun u => (rm_mom u, rm_var u)) l) x y = Done s' tt ->
    rms_history compat ord top A L s' /\ is_frozen s' e = false /\
    exists s0, rms_history compat ord top A L s0 /\ fed s s0 i o x y /\ nodes s' = nodes s /\
      (forall v, leaf s v -> ~ In v (map rm_var l) -> ~ In v (map rm_mom l) -> val s' v = val s0 v) /\
      forall u, In u l -> leaf s (rm_var u) /\ leaf s (rm_mom u) /\ exists gradient momentum change old new,
        denotes s0 (rm_grad u) (Some gradient) /\
        announced A (rm_one u) gradient = Some momentum /\ val s' (rm_mom u) = Some momentum /\
        div_ A (scale_lr A gradient) (add_eps A (sqrt_ A momentum)) = Some change /\
        val s0 (rm_var u) = Some old /\ sub_ A old change = Some new /\ val s' (rm_var u) = Some new.
Proof. intros V compat ord top A L l s i o e x y s' Ho Ht Rh Hl Nd Ni No Hc E. exact (rms_train_ok compat ord top Ho Ht A L s i o e l x y s' Rh Hl Nd Ni No Hc E). Qed.

Lemma rms_WF {V} compat ord top (A : arith V) L s : valid_order ord -> valid_top top -> rms_history compat ord top A L s -> WF s.
Proof.
  intros Ho Ht Rh. destruct (reach compat ord top Ho Ht A L s Rh) as (t & ys & -> & I). apply over_WF; [eapply inv_W; eassumption|].
  intros m Hm. eapply key_leaf; eassumption.
Qed.
Lemma nth_map_combine (f : R -> R -> R) a b k : length b = length a -> (k < length a)%nat ->
  nth k (map (fun p => f (fst p) (snd p)) (combine a b)) 0%R = f (nth k a 0%R) (nth k b 0%R).
Proof. revert b k. induction a as [|x a IH]; intros [|y b] k L Hk; cbn in *; try lia. destruct k; [reflexivity|]. apply IH; lia. Qed.
Lemma nth_map' (f : R -> R) a k : (k < length a)%nat -> nth k (map f a) 0%R = f (nth k a 0%R).
Proof. intros Hk. rewrite (nth_indep _ 0%R (f 0%R)) by now rewrite map_length. apply map_nth. Qed.
Local Open Scope R_scope.

(** Training a new mlp of any sizes with a batch of any size with RMSprop. The graph may have
    been used and trained in any way before; its leaves [loc v] hold the variables and
    placeholders, none of them a momentum; every parameter has exactly one updater in this call,
    whose gradient node shows the derivative of the squared error and whose momentum was
    initialised with ones. If train returns, then for every element of every parameter, with D
    the derivative of the summed squared error by that element at the inputs given and the
    parameters before the call, the momentum's element is d + (1 - d) * D^2 and the parameter's
    element has been decreased by rate * D / (sqrt(d + (1 - d) * D^2) + epsilon); shapes are kept
    and variables that are not parameters are left alone. Finding: the momentum is computed from
    its initial value at every call; gradients of earlier calls have no influence. *)
Lemma C65_rmsprop_descent_lemma :
  forall fresh use same of_nat (n r c : nat) (hs : list (nat * @act R)) scope st m st' compat ord top lr d eps loc L (l : list (rms_up (tens R))) s train_in expected x y error s' E,
    let A := real_tensors lr d eps in
    node_identity same -> valid_order ord -> valid_top top ->
    (0 < n)%nat -> (0 < r)%nat -> Forall (fun h => (0 < fst h)%nat /\ smooth_act same (snd h)) hs ->
    mlp_new Rnum of_nat n hs scope st = (m, st') -> m_nout m = Some c ->
    let env := fed_env loc s train_in expected x y in
    (forall q, In q (mlp_variables m) -> initialized env st' q) ->
    matrix n r x -> fst x = [n; r] -> matrix c r y ->
    train_in <> expected -> ~ In train_in (mlp_variables m) -> ~ In expected (mlp_variables m) ->
    gd_error Rnum same (CMlp m) train_in expected [n; r] = Ok E ->
    rms_history compat ord top A L s -> incl l L ->
    (forall u v, loc u = loc v -> u = v) -> (forall v, is_op (nodes s) (loc v) = false) -> (forall v, ~ In (loc v) (map rm_mom L)) ->
    NoDup (map rm_var l) -> (forall p, In p (mlp_variables m) -> In (loc p) (map rm_var l)) ->
    (forall u, In u l -> linked s (rm_grad u) error /\ (forall u', In u' L -> ~ upstream s (rm_mom u') (rm_grad u)) /\
       exists p Y old, In p (mlp_variables m) /\ rm_var u = loc p /\ derive Rnum fresh use same env p E = Ok Y /\ shows Rnum fresh use loc s (rm_grad u) Y /\
         val s (loc p) = Some old /\ rm_one u = ones_like old) ->
    net_train_rms compat ord top A s (loc train_in) (loc expected) error (map (fun u => (rm_mom u, rm_var u)) l) x y = Done s' tt ->
    (forall u, In u l -> exists p old new momentum, In p (mlp_variables m) /\ rm_var u = loc p /\
       val s (loc p) = Some old /\ val s' (loc p) = Some new /\ val s' (rm_mom u) = Some momentum /\
       fst new = fst old /\ length (snd new) = length (snd old) /\ fst momentum = fst old /\ length (snd momentum) = length (snd old) /\
       forall k, (k < length (snd old))%nat -> exists D,
         derivable_pt_lim (fun v => total (eval Rnum fresh use (set_elem env p k v) E)) (at_ old k) D /\
         at_ momentum k = d + (1 - d) * D ^ 2 /\
         at_ new k = at_ old k - lr * D / (sqrt (d + (1 - d) * D ^ 2) + eps)) /\
    (forall v, leaf s (loc v) -> ~ In v (mlp_variables m) -> v <> train_in -> v <> expected -> val s' (loc v) = val s (loc v)).
Proof.
  intros fresh use same of_nat n r c hs scope st m st' compat ord top lr d eps loc L l s ti ex x y err s' E A Hs Ho Ht Hn Hr Ha Hm Hc env Hi Mx Sx My Ne Nt Nx HE Hh Hl Inj Nop Nm Nd Hup Hn2 Et.
  destruct (C65_training_lemma _ compat ord top A L l s (loc ti) (loc ex) err x y s' Ho Ht Hh Hl Nd (Nm ti) (Nm ex) (fun u Hu => conj (proj1 (Hn2 u Hu)) (proj1 (proj2 (Hn2 u Hu)))) Et) as (H' & F & s0 & H0 & (N0 & V1 & V2 & V3) & N & U & D).
  assert (Nlt : forall v, leaf s (loc v) \/ val s (loc v) = None /\ val s0 (loc v) = None).
  { intros v. specialize (Nop v). unfold is_op in Nop. destruct (nth_error (nodes s) (loc v)) as [[|]|] eqn:Hv; [now left|discriminate|right].
    apply nth_error_None in Hv. assert (W : forall t, WF t -> nodes t = nodes s -> val t (loc v) = None).
    { intros t W Et'. unfold val. replace (nth_error (vals t) (loc v)) with (@None (option (tens R))); [reflexivity|]. symmetry. apply nth_error_None. rewrite (wf_vals _ W), Et'. exact Hv. }
    split; apply W; auto; [exact (rms_WF compat ord top A L s Ho Ht Hh)|exact (rms_WF compat ord top A L s0 Ho Ht H0)]. }
  assert (Henv : leaf_env loc s0 = env).
  { apply functional_extensionality. intros v. unfold env, fed_env, leaf_env.
    destruct (Nat.eqb_spec v ti) as [->|Nv1]; [rewrite V2; [reflexivity|intros C; apply Inj in C; contradiction]|].
    destruct (Nat.eqb_spec v ex) as [->|Nv2]; [now rewrite V1|].
    destruct (Nlt v) as [Lv|[L1 L2]]; [|now rewrite L1, L2]. rewrite V3; auto; intros C; apply Inj in C; contradiction. }
  assert (Cst : forall q, leaf s q -> (forall v, loc v <> q) -> val s0 q = val s q).
  { intros q Hq Hv. apply V3; auto; intros ->; now apply (Hv _ eq_refl). }
  split.
  - intros u Hu. destruct (Hn2 u Hu) as (Hcn & _ & p & Y & old & Hp & Ep & HY & Sh & X2' & Eone).
    assert (Mt : matrix n r (env ti)) by (unfold env, fed_env; now rewrite Nat.eqb_refl).
    assert (St : fst (env ti) = [n; r]) by (unfold env, fed_env; now rewrite Nat.eqb_refl).
    assert (Me : matrix c r (env ex)) by (unfold env, fed_env; rewrite Nat.eqb_refl; destruct (Nat.eqb_spec ex ti) as [C|C]; [congruence|exact My]).
    destruct (C37_training_gradient_lemma fresh use same of_nat env n r c hs scope st m st' ti ex p Hs Hn Hr Ha Hm Hc Hi Mt St Me Nt Nx Hp) as (E' & g & HE' & ((Y' & HY' & Ev) & Fg & Lg & Dg)).
    rewrite HE in HE'. injection HE' as <-. rewrite HY in HY'. injection HY' as <-.
    destruct (D u Hu) as (Lw & Lm & gv & mo & ch & old' & new & X1 & X3 & X4 & X5 & X6 & X7 & X8). rewrite Ep in *.
    assert (Np : loc p <> loc ti /\ loc p <> loc ex) by (split; intros C; apply Inj in C; subst; contradiction).
    assert (old' = old) as ->. { rewrite (V3 (loc p) Lw (proj1 Np) (proj2 Np)) in X6. congruence. }
    assert (Eo : env p = old). { rewrite <- Henv. unfold leaf_env. now rewrite X6. }
    assert (Sh0 : shows Rnum fresh use loc s0 (rm_grad u) Y) by (apply (shows_nodes fresh use loc s s0 N0 Cst); exact Sh).
    pose proof (shows_eval fresh use loc s0 Y (rm_grad u) gv Sh0 X1) as Ez. rewrite Henv in Ez. rewrite Ev in Ez. injection Ez as <-.
    rewrite Eo in *. exists p, old, new, mo. split; [exact Hp|]. split; [reflexivity|]. split; [exact X2'|]. split; [exact X8|]. split; [exact X4|].
    rewrite Eone in X3. unfold announced, A, real_tensors, ones_like, tmap, tmap2 in X3. cbn [add_ scale_d scale_1d square fst snd] in X3.
    rewrite !map_length, Lg, Nat.eqb_refl in X3. injection X3 as <-.
    unfold A, real_tensors, tmap, tmap2 in X5. cbn [div_ scale_lr add_eps sqrt_ fst snd] in X5.
    rewrite !map_length, combine_length, !map_length, Lg, Nat.min_id, Nat.eqb_refl in X5. injection X5 as <-.
    unfold A, real_tensors, tensor_sub in X7. cbn [sub_ fst snd] in X7.
    rewrite !map_length, !combine_length, !map_length, combine_length, !map_length, Lg, !Nat.min_id, Nat.eqb_refl in X7. injection X7 as <-.
    cbn [fst snd]. split; [reflexivity|]. split; [rewrite !map_length, !combine_length, !map_length, !combine_length, !map_length, combine_length, !map_length, Lg; lia|].
    split; [reflexivity|]. split; [rewrite !map_length, !combine_length, !map_length, Lg; lia|].
    intros k Hk. exists (at_ g k). split; [now apply Dg|].
    assert (Q : forall (t : tens R), length (snd t) = length (snd old) -> at_ t k = nth k (snd t) 0) by (intros t Lt; exact (RbmTrainProofs.at_nth' t k _ Lt Hk)).
    rewrite !Q by (cbn [snd]; rewrite ?map_length, ?combine_length, ?map_length, ?combine_length, ?map_length, ?combine_length, ?map_length, ?Lg, ?Nat.min_id; reflexivity). cbn [snd].
    repeat first [ rewrite nth_map_combine by (rewrite ?map_length, ?combine_length, ?map_length, ?combine_length, ?map_length, ?combine_length, ?map_length, ?Lg, ?Nat.min_id; auto)
                 | rewrite nth_map' by (rewrite ?map_length, ?combine_length, ?map_length, ?combine_length, ?map_length, ?combine_length, ?map_length, ?Lg, ?Nat.min_id; auto) ].
    split; [ring|]. rewrite (Rmult_1_r d). cbn [pow]. unfold Rdiv. ring.
  - intros v Hv Np Nv1 Nv2. rewrite U; [|exact Hv| |].
    + apply V3; auto; intros C; apply Inj in C; contradiction.
    + intros C. apply in_map_iff in C as (u & Ew & Hk). destruct (Hn2 _ Hk) as (_ & _ & p & Y & old & Hp & Ep & _). rewrite Ep in Ew. apply Inj in Ew. subst p. contradiction.
    + intros C. apply in_map_iff in C as (u & Ew & Hk). apply (Nm v). rewrite <- Ew. apply in_map. now apply Hl.
Qed.

(** The net of one input, one output and no activation function, weight 3 and bias 1, with an
    RMSprop updater for each: training on input 2 and expected output 5 - the output is 7, the
    squared error 4, its derivatives by weight and bias 8 and 4. All hypotheses of
    C65_rmsprop_descent hold. *)
Lemma C65_nonvacuous_lemma : forall fresh use lr d eps, exists (m : @mlp R) st (s s' : estate (tens R)) E L,
  let loc := small_loc in let x := ([1; 1]%nat, [2]) in let y := ([1; 1]%nat, [5]) in
  let env := fed_env loc s 2 3 x y in let A := real_tensors lr d eps in
  node_identity same_tree /\ valid_order (@audience (tens R)) /\ valid_top (@least (tens R)) /\
  Forall (fun h => (0 < fst h)%nat /\ smooth_act same_tree (snd h)) [(1%nat, mk_id)] /\
  mlp_new Rnum INR 1 [(1%nat, mk_id)] "net"%string [] = (m, st) /\ m_nout m = Some 1%nat /\
  (forall q, In q (mlp_variables m) -> initialized env st q) /\
  matrix 1 1 x /\ matrix 1 1 y /\ ~ In 2%nat (mlp_variables m) /\ ~ In 3%nat (mlp_variables m) /\
  gd_error Rnum same_tree (CMlp m) 2 3 [1; 1]%nat = Ok E /\
  rms_history (fun _ _ => true) audience least A L s /\ (forall u v, loc u = loc v -> u = v) /\ (forall v, is_op (nodes s) (loc v) = false) /\
  (forall v, ~ In (loc v) (map rm_mom L)) /\ map rm_var L = [1; 0]%nat /\ map rm_mom L = [27; 18]%nat /\
  NoDup (map rm_var L) /\ (forall p, In p (mlp_variables m) -> In (loc p) (map rm_var L)) /\
  (forall u, In u (rev L) -> linked s (rm_grad u) 7 /\ (forall u', In u' L -> ~ upstream s (rm_mom u') (rm_grad u)) /\
     exists p Y old, In p (mlp_variables m) /\ rm_var u = loc p /\ derive Rnum fresh use same_tree env p E = Ok Y /\ shows Rnum fresh use loc s (rm_grad u) Y /\
       val s (loc p) = Some old /\ rm_one u = ones_like old) /\
  net_train_rms (fun _ _ => true) audience least A s (loc 2%nat) (loc 3%nat) 7 (map (fun u => (rm_mom u, rm_var u)) (rev L)) x y = Done s' tt /\
  val s 0 = Some ([1; 1]%nat, [3]) /\ val s 1 = Some ([1]%nat, [1]) /\
  val s' 0 = Some ([1; 1]%nat, [3 - 8 * lr / (sqrt (d + (1 - d) * 64) + eps)]) /\ val s' 1 = Some ([1]%nat, [1 - 4 * lr / (sqrt (d + (1 - d) * 16) + eps)]) /\
  val s' 18 = Some ([1; 1]%nat, [d + (1 - d) * 64]) /\ val s' 27 = Some ([1]%nat, [d + (1 - d) * 16]).
Proof.
  intros fresh use lr d eps.
  destruct (rms_small_runs 0 1 2 Rplus Rminus Rmult Rdiv Ropp Rabs sin cos tan exp sqrt Rround ln Rpow Reqb Rltb fresh use
     (fun x => x * lr) (fun x => d * x) (fun x => (1 - d) * x) (fun x => x ^ 2) sqrt (fun x => x + eps) Rplus Rdiv 3 1 lr 2 5 (Reqb_yes _)) as (s1 & s2 & s & s' & rest1 & rest & R1 & R2 & R3 & T & Q1 & Q2 & Q3 & Hn & Q5 & V0 & V1 & W0 & W1 & W2 & W3).
  change (sym_arith Rminus (fun x => x * lr) (fun x => d * x) (fun x => (1 - d) * x) (fun x => x ^ 2) sqrt (fun x => x + eps) Rplus Rdiv) with (real_tensors lr d eps) in *.
  destruct (small_net 0 1 2 Rplus Rminus Rmult Rdiv Ropp Rabs sin cos tan exp sqrt Rround ln Rpow Reqb Rltb same_tree (proj1 same_tree_identity) same_tree_refl R20 R21 INR) as (m & st & M & Mv & Mo & Me & I0 & I1).
  destruct (rms_small_shows 0 1 2 Rplus Rminus Rmult Rdiv Ropp Rabs sin cos tan exp sqrt Rround ln Rpow Reqb Rltb fresh use sqrt sqrt sqrt sqrt sqrt sqrt Rplus Rplus s lr rest Hn) as (S0 & S1 & C0 & C1).
  pose proof (small_dw_ok 0 1 2 Rplus Rminus Rmult Rdiv Ropp Rabs sin cos tan exp sqrt Rround ln Rpow Reqb Rltb fresh use same_tree (proj1 same_tree_identity) R01 R10 (fun x => Reqb_yes x) R20 R21 R02 R12 Rm2) as Dw.
  pose proof (small_db_ok 0 1 2 Rplus Rminus Rmult Rdiv Ropp Rabs sin cos tan exp sqrt Rround ln Rpow Reqb Rltb fresh use same_tree (proj1 same_tree_identity) R01 R10 (fun x => Reqb_yes x) R20 R21 R02 R12 Rm2) as Db.
  assert (Q0 : forall a b, a <> b -> Reqb a b = false) by (intros a b H; exact (Reqb_no a b H)).
  specialize (Dw ltac:(lra)). specialize (Db ltac:(lra)). do 6 (match type of Db with ?P -> _ => let H := fresh in assert (H : P) by (first [apply Q0; intros C; lra | intros C; lra]); specialize (Db H); clear H end).
  fold Rnum in *. cbv zeta in W0, W1, W2, W3.
  assert (Ln : length (nodes s) = 36%nat) by (rewrite Hn, app_length, Q5; reflexivity).
  assert (Nop : forall v, is_op (nodes s) (small_loc v) = false).
  { intros v. unfold small_loc. destruct (Nat.ltb_spec v 4) as [Hv|Hv]; [rewrite Hn; destruct v as [|[|[|[|v]]]]; try lia; reflexivity|].
    unfold is_op. rewrite (proj2 (nth_error_None _ _)); [reflexivity|]. rewrite Ln. lia. }
  assert (En : let env := fed_env small_loc s 2 3 ([1; 1]%nat, [2]) ([1; 1]%nat, [5]) in env 0%nat = ([1; 1]%nat, [3]) /\ env 1%nat = ([1]%nat, [1]) /\ env 2%nat = ([1; 1]%nat, [2]) /\ env 3%nat = ([1; 1]%nat, [5])).
  { cbv zeta. unfold fed_env, leaf_env. cbn [Nat.eqb small_loc Nat.ltb Nat.leb]. rewrite V0, V1. auto. }
  cbv zeta in En. destruct En as (N0 & N1 & N2 & N3).
  set (u0 := mkRms 18 0 13 ([1; 1]%nat, [1]) : rms_up (tens R)). set (u1 := mkRms 27 1 16 ([1]%nat, [1]) : rms_up (tens R)).
  assert (H1 : rms_history (fun _ _ => true) audience least (real_tensors lr d eps) [] s1) by (apply rh_start; eexists; split; [exact R1|repeat constructor]).
  assert (Q2l : length (nodes s2) = 27%nat) by (rewrite Q2, app_length, Q3; reflexivity).
  assert (H2 : rms_history (fun _ _ => true) audience least (real_tensors lr d eps) [u0] s2).
  { pose proof (rh_build (fun _ _ => true) audience least (real_tensors lr d eps) [] s1 0 13 ([1; 1]%nat, [1]) s2 H1) as K. rewrite Q1 in K. cbn [length small_nodes] in K.
    apply K; [unfold leaf; rewrite Q1; reflexivity|cbn; tauto|lia|cbn; tauto|exact R2]. }
  assert (H3 : rms_history (fun _ _ => true) audience least (real_tensors lr d eps) [u1; u0] s).
  { pose proof (rh_build (fun _ _ => true) audience least (real_tensors lr d eps) [u0] s2 1 16 ([1]%nat, [1]) s H2) as K. rewrite Q2l in K.
    apply K; [unfold leaf; rewrite Q2; reflexivity|cbn; lia|lia|cbn; lia|exact R3]. }
  assert (Up : forall a v, upstream s a v -> (a <= v)%nat).
  { pose proof (rms_WF _ _ _ _ _ _ audience_valid least_valid H3) as W. intros a v H. induction H as [|v args f a b [e He] Ha Hb IH]; [lia|]. apply (wf_args _ W) in He as [_ He]. specialize (He _ Ha). lia. }
  exists m, st, s, s'. exists (small_error Rnum), [u1; u0]. cbv zeta. rewrite Mv.
  split; [exact same_tree_identity|]. split; [apply audience_valid|]. split; [apply least_valid|].
  split; [constructor; [split; [cbn; lia|constructor]|constructor]|]. split; [exact M|]. split; [exact Mo|].
  split.
  { intros q [<-|[<-|[]]]; [destruct I0 as (v & Dv & Sv)|destruct I1 as (v & Dv & Sv)]; exists v; rewrite Sv, ?N0, ?N1; auto. }
  split; [repeat split; auto|]. split; [repeat split; auto|]. split; [cbn; lia|]. split; [cbn; lia|]. split; [exact Me|].
  split; [exact H3|]. split; [exact small_loc_inj|]. split; [exact Nop|].
  split; [intros v [C|[C|[]]]; unfold u0, u1 in C; cbn [rm_mom] in C; unfold small_loc in C; destruct (Nat.ltb_spec v 4); lia|]. split; [reflexivity|]. split; [reflexivity|].
  split; [repeat constructor; cbn; lia|]. split; [intros p [<-|[<-|[]]]; cbn; auto|].
  split.
  { intros u [<-|[<-|[]]]; cbn [rm_grad rm_var rm_one u0 u1].
    - split; [exact C0|]. split; [intros u' [<-|[<-|[]]] C; apply Up in C; unfold u0, u1 in C; cbn [rm_mom rm_grad] in C; lia|]. exists 0%nat. do 2 eexists. split; [now left|]. split; [reflexivity|]. split; [exact (Dw _ _ _ _ _ N0 N1 N2 N3)|]. split; [exact S0|]. split; [exact V0|reflexivity].
    - split; [exact C1|]. split; [intros u' [<-|[<-|[]]] C; apply Up in C; unfold u0, u1 in C; cbn [rm_mom rm_grad] in C; lia|]. exists 1%nat. do 2 eexists. split; [right; now left|]. split; [reflexivity|]. split; [exact (Db _ _ _ _ _ N0 N1 N2 N3)|]. split; [exact S1|]. split; [exact V1|reflexivity]. }
  split; [exact T|]. split; [exact V0|]. split; [exact V1|].
  assert (X1 : 0 + 2 * (2 * - (1) * (5 - (0 + 2 * 3 + 1))) = 8) by ring. assert (X2 : 2 * - (1) * (5 - (0 + 2 * 3 + 1)) = 4) by ring.
  assert (Y1 : d * 1 + (1 - d) * 8 ^ 2 = d + (1 - d) * 64) by ring. assert (Y2 : d * 1 + (1 - d) * 4 ^ 2 = d + (1 - d) * 16) by ring.
  rewrite X1, Y1 in W0. rewrite X2, Y2 in W1. rewrite X1, Y1 in W2. rewrite X2, Y2 in W3. auto.
Qed.

Lemma same_of_nth s (u v : tens R) : length (snd u) = length (snd v) -> length (snd v) = n_elems s -> (forall i, (i < n_elems s)%nat -> at_ u i = at_ v i) -> same_elements u v.
Proof. intros L1 L2 H. split; [exact L1|]. intros k Hk. apply H. now rewrite <- L2. Qed.
Lemma at_tmap2 f s (a b c : tens R) i : tmap2 f a b = Some c -> length (snd a) = n_elems s -> length (snd b) = n_elems s -> (i < n_elems s)%nat ->
  length (snd c) = n_elems s /\ at_ c i = f (at_ a i) (at_ b i).
Proof.
  intros E La Lb Hi. unfold tmap2 in E. rewrite La, Lb, Nat.eqb_refl in E. injection E as <-.
  assert (L : length (map (fun p => f (fst p) (snd p)) (combine (snd a) (snd b))) = n_elems s) by (rewrite map_length, combine_length, La, Lb; lia).
  split; [exact L|]. rewrite (RbmTrainProofs.at_nth' (fst a, map (fun p => f (fst p) (snd p)) (combine (snd a) (snd b))) i _ L Hi), (RbmTrainProofs.at_nth' a i _ La Hi), (RbmTrainProofs.at_nth' b i _ Lb Hi). cbn [snd].
  apply nth_map_combine; congruence.
Qed.

(** The arithmetic the updater applies is that of the library's operators on tensors of one
    shape: x * rate, d * x, (1 - d) * x, pow(x, 2), sqrt(x), x + epsilon, x + y and x / y have
    the elements of the functions of [real_tensors]. *)
Lemma C65_operators_lemma : forall fresh use env lr d eps s (a b : tens R),
  let A := real_tensors lr d eps in let ev := eval Rnum fresh use env in
  fits s a -> length (snd a) = n_elems s -> fits s b -> length (snd b) = n_elems s ->
  (exists u, ev (EUn (UMulR lr) (EConst a)) = Ok u /\ same_elements u (scale_lr A a)) /\
  (exists u, ev (EUn (UMulL d) (EConst a)) = Ok u /\ same_elements u (scale_d A a)) /\
  (exists u, ev (EUn (UMulL (1 - d)) (EConst a)) = Ok u /\ same_elements u (scale_1d A a)) /\
  (exists u, ev (EUn (UPow 2) (EConst a)) = Ok u /\ same_elements u (square A a)) /\
  (exists u, ev (EUn USqrt (EConst a)) = Ok u /\ same_elements u (sqrt_ A a)) /\
  (exists u, ev (EUn (UAddR eps) (EConst a)) = Ok u /\ same_elements u (add_eps A a)) /\
  (exists u v, ev (EBin BAdd (EConst a) (EConst b)) = Ok u /\ add_ A a b = Some v /\ same_elements u v) /\
  (exists u v, ev (EBin BDiv (EConst a) (EConst b)) = Ok u /\ div_ A a b = Some v /\ same_elements u v).
Proof.
  intros fresh use env lr d eps s a b A ev Fa La Fb Lb.
  assert (U : forall op f, (forall x, meaning Rnum op x = f x) -> exists u, ev (EUn op (EConst a)) = Ok u /\ same_elements u (tmap f a)).
  { intros op f Hf. destruct (un_ok fresh use s env op (EConst a) a eq_refl Fa) as (u & E & _ & L & H). exists u. split; [exact E|].
    apply (same_of_nth s); [unfold tmap; cbn [snd]; now rewrite map_length|unfold tmap; cbn [snd]; now rewrite map_length|].
    intros i Hi. rewrite H by exact Hi. unfold tmap. rewrite (at_map f s a (fst a) i Fa Hi). apply Hf. }
  assert (B : forall op f, (forall x y, bmeaning Rnum op x y = f x y) -> exists u v, ev (EBin op (EConst a) (EConst b)) = Ok u /\ tmap2 f a b = Some v /\ same_elements u v).
  { intros op f Hf. destruct (bin_ok fresh use s env op (EConst a) (EConst b) a b eq_refl eq_refl Fa Fb) as (u & E & _ & L & _ & H). exists u.
    destruct (tmap2 f a b) as [v|] eqn:Ev; [|unfold tmap2 in Ev; rewrite La, Lb, Nat.eqb_refl in Ev; discriminate]. exists v. split; [exact E|]. split; [reflexivity|].
    assert (Lv : length (snd v) = n_elems s) by (unfold tmap2 in Ev; rewrite La, Lb, Nat.eqb_refl in Ev; injection Ev as <-; cbn [snd]; rewrite map_length, combine_length, La, Lb; lia).
    apply (same_of_nth s); [rewrite Lv; now apply L|exact Lv|]. intros i Hi. rewrite H by exact Hi. destruct (at_tmap2 f s a b v i Ev La Lb Hi) as [_ ->]. apply Hf. }
  unfold A, real_tensors. cbn [scale_lr scale_d scale_1d square sqrt_ add_eps add_ div_].
  split; [now apply U|]. split; [now apply U|]. split; [now apply U|]. split; [|split; [now apply U|split; [now apply U|split; now apply B]]].
  apply U. intros x. cbn [meaning n_pow Rnum]. change (Rpow x 2) with (Rpow x (IZR 2)). rewrite Rpow_IZR. reflexivity.
Qed.
