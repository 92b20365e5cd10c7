(** C62: calling the training functions of restricted Boltzmann machines and deep belief
    networks. *)
From Coq Require Import String Reals Lra Lia Permutation.
From Verif Require Import Common CseModel ShapeModel ShapeProofs ElemModel ElemProofs NumSpec RealNum GradModel GradSpec MatrixSpec MlpSpec MlpModel MlpLaws GroupModel RbmTrainModel RbmTrainLaws DbSpec DbModel DbNet DbLaws.
From Verif Require ElemSpec EvalLaws UpdaterLaws EvalModel EvalSpec EvalProofs TrainSpec TrainProofs DqnModel DqnProofs NetLaws DbStep.
From Verif Require Import CallModel CallSpec CallProofs.
Local Open Scope list_scope.

(** Any functions called between freezing and unfreezing a cost: if each changes a different
    variable and the nodes they use are operations of the cost's graph, then
    all of them use the values before the call, in whatever order they are called; other
    leaves keep their values and the cost is not left frozen. *)
Lemma C62_window_lemma :
  forall (V : Type) compat ord top (s s' : EvalModel.estate V) cost l,
    EvalSpec.valid_order ord -> EvalSpec.valid_top top -> TrainSpec.history compat ord top s ->
    NoDup (flat_map target l) -> (forall w n f, In (KNode w n f) l -> linked s n cost) ->
    frozen_call compat ord top s cost l = EvalModel.Done s' tt ->
    TrainSpec.history compat ord top s' /\ EvalModel.is_frozen s' cost = false /\ EvalModel.nodes s' = EvalModel.nodes s /\
    (forall v, EvalSpec.leaf s v -> ~ In v (flat_map target l) -> EvalModel.val s' v = EvalModel.val s v) /\
    (forall w n f, In (KNode w n f) l -> EvalSpec.leaf s w /\ exists x y z, EvalSpec.denotes s n (Some x) /\ EvalModel.val s w = Some y /\ f y x = Ok z /\ EvalModel.val s' w = Some z) /\
    (forall w f, In (KData w f) l -> EvalSpec.leaf s w /\ exists y z, EvalModel.val s w = Some y /\ f y = Ok z /\ EvalModel.val s' w = Some z).
Proof.
  intros V compat ord top s s' cost l Ho Ht Hh Nd Hc E. destruct (call_ok compat ord top Ho Ht s cost l s' Hh Nd Hc E) as (A & B & C & D & F).
  split; [exact A|]. split; [exact B|]. split; [exact C|]. split; [exact D|]. split.
  - intros w n f Hi. exact (F _ Hi).
  - intros w f Hi. exact (F _ Hi).
Qed.

Lemma sub_inv (t d new : tens R) : DqnModel.assign_sub t (d, false) = Ok new -> length (snd t) = n_elems (fst t) -> length (snd d) = length (snd t) ->
  fst new = fst t /\ length (snd new) = length (snd t) /\ forall k, k < length (snd t) -> nth k (snd new) 0%R = (nth k (snd t) 0 - nth k (snd d) 0)%R.
Proof.
  intros E Lt Ld. assert (Wd : length (snd d) = n_elems (fst d)).
  { unfold DqnModel.assign_sub in E. cbn [andb] in E. destruct (n_elems (fst d) =? n_elems (fst t)) eqn:Q; [|discriminate]. apply Nat.eqb_eq in Q. lia. }
  destruct (DbStep.sub_ok t d false eq_refl Lt Wd Ld) as (new' & E' & X). rewrite E in E'. injection E' as <-. exact X.
Qed.
Lemma zero_is (t : tens R) : const_is Rnum t 0%R = true -> exists s, t = (s, [0%R]).
Proof.
  destruct t as [s l]. unfold const_is. cbn [snd]. destruct l as [|a [|b l]]; try discriminate. intros H. exists s. f_equal. f_equal. symmetry.
  cbn in H. destruct (Req_EM_T 0 a) as [Q|Q]; [exact Q|]. exfalso. revert H. pose proof (NetMlpProofs.Reqb_no 0 a Q) as Z. cbn in Z. rewrite ?Z. discriminate.
Qed.
Lemma sub_inv' (t d new : tens R) con : DqnModel.assign_sub t (d, con) = Ok new -> length (snd t) = n_elems (fst t) -> length (snd d) = length (snd t) ->
  fst new = fst t /\ length (snd new) = length (snd t) /\ forall k, k < length (snd t) -> nth k (snd new) 0%R = (nth k (snd t) 0 - nth k (snd d) 0)%R.
Proof.
  intros E Lt Ld. destruct con; [|now apply sub_inv]. destruct (const_is Rnum d 0%R) eqn:Z.
  - unfold DqnModel.assign_sub in E. rewrite Z in E. cbn [andb] in E. injection E as <-. split; [reflexivity|]. split; [reflexivity|]. intros k Hk. destruct (zero_is _ Z) as [sh ->]. cbn [snd length] in *.
    destruct k; [|lia]. cbn. lra.
  - unfold DqnModel.assign_sub in E. rewrite Z in E. cbn [andb] in E. destruct (n_elems (fst t) <=? length (snd d)) eqn:Q; [|discriminate]. cbn [assert_ bind] in E.
    rewrite DqnProofs.sub_loop in E by lia. cbn [bind] in E. injection E as <-. cbn [fst snd]. split; [reflexivity|].
    assert (Lm : length (ElemSpec.map2 Rminus (snd t) (snd d)) = length (snd t)) by (rewrite DqnProofs.map2_length; lia). split; [exact Lm|].
    intros k Hk. apply nth_error_nth. apply DqnProofs.map2_nth; apply nth_error_nth'; lia.
Qed.
Lemma copy_inv {A} (x : list A) n : forall y d, for_ n (fun i d => z <- rd x i ;; wr d i z) y = Ok d ->
  length d = length y /\ (forall k, k < n -> nth_error d k = nth_error x k) /\ (forall k, n <= k -> nth_error d k = nth_error y k) /\ n <= length y.
Proof.
  induction n as [|n IH]; intros y d E; [cbn in E; injection E as <-; repeat split; auto; lia|].
  rewrite for_succ in E. destruct (for_ n _ y) as [d1| | |] eqn:E1; try discriminate. destruct (IH _ _ E1) as (L & A1 & A2 & A3). cbn [bind] in E.
  unfold rd in E. destruct (nth_error x n) as [z|] eqn:Ez; [|discriminate]. cbn [bind] in E. unfold wr in E. destruct (n <? length d1) eqn:Q; [|discriminate]. injection E as <-. apply Nat.ltb_lt in Q.
  split; [now rewrite length_set_nth|]. split; [|split; [|lia]].
  - intros k Hk. destruct (Nat.eq_dec k n) as [-> |Ne]; [rewrite nth_error_set_nth_eq by exact Q; congruence|]. rewrite nth_error_set_nth_neq by lia. apply A1. lia.
  - intros k Hk. rewrite nth_error_set_nth_neq by lia. apply A2. lia.
Qed.
(** the functions for the variables and nodes of [us] *)
Section Us.
Context (loc node : nat -> nat) (Inj : forall u v, loc u = loc v -> u = v).
Let cl := fun p : nat * @gexpr R => sub_closure (loc (fst p)) (node (fst p)) (snd p).
Lemma target_sub w n u x : In x (target (sub_closure w n u)) -> x = w.
Proof. destruct u; cbn; try (intros [H|[]]; auto; fail). destruct (const_is Rnum t 0%R); cbn; [intros []|intros [H|[]]; auto]. Qed.
Lemma targets_in us x : In x (flat_map target (map cl us)) -> exists v, x = loc v /\ In v (map fst us).
Proof.
  intros H. apply in_flat_map in H as (c & Hc & Hx). apply in_map_iff in Hc as ([v u] & <- & Hi). unfold cl in Hx. cbn [fst snd] in Hx. apply target_sub in Hx. exists v. split; [exact Hx|]. apply (in_map fst) in Hi. exact Hi.
Qed.
Lemma targets_nodup us : NoDup (map fst us) -> NoDup (flat_map target (map cl us)).
Proof.
  induction us as [|[v u] us IH]; intros Nd; [constructor|]. cbn [map fst] in Nd. apply NoDup_cons_iff in Nd as [Nv Nd]. specialize (IH Nd). cbn [map flat_map].
  assert (G : ~ In (loc v) (flat_map target (map cl us))) by (intros C; apply targets_in in C as (v' & E & Hi); apply Inj in E; subst; contradiction).
  assert (K : target (cl (v, u)) = [] \/ target (cl (v, u)) = [loc v]).
  { unfold cl. cbn [fst snd]. destruct u; cbn; auto. destruct (const_is Rnum t 0%R); auto. }
  destruct K as [-> | ->]; [exact IH|]. cbn [app]. now constructor.
Qed.
Lemma targets_other us v u : NoDup (map fst us) -> In (v, u) us -> target (cl (v, u)) = [] -> ~ In (loc v) (flat_map target (map cl us)).
Proof.
  intros Nd Hi Ht C. apply in_flat_map in C as (c & Hc & Hx). apply in_map_iff in Hc as ([v' u'] & <- & Hi'). pose proof Hx as Hx'. unfold cl in Hx'. cbn [fst snd] in Hx'. apply target_sub in Hx'. apply Inj in Hx'. subst v'.
  assert (u' = u). { clear - Nd Hi Hi'. induction us as [|[a b] us IH]; [destruct Hi|]. cbn [map fst] in Nd. apply NoDup_cons_iff in Nd as [Na Nd]. destruct Hi as [H|Hi], Hi' as [H'|Hi'].
    - congruence.
    - injection H as -> ->. apply (in_map fst) in Hi'. contradiction.
    - injection H' as -> ->. apply (in_map fst) in Hi. contradiction.
    - auto. }
  subst u'. rewrite Ht in Hx. destruct Hx.
Qed.
End Us.

(** Fine tuning called: the graph may have been used in any way before; its leaves [loc v] hold
    the variables and placeholders, and the update nodes that build_finetune_functions makes
    are nodes of it, in one graph with the cost. If the function returns, every parameter has kept
    its shape and made the step of C61 for the parameters, inputs and labels before the call,
    all at once; nothing else has changed. *)
Lemma C62_finetune_lemma :
  forall (of_nat : nat -> R) same fresh use (n b : nat) sizes scope st d st' lr compat ord top loc node (s s' : EvalModel.estate (tens R)) train_in train_out cost_node cost us error,
    (forall a b, same a b = true -> a = b) -> (forall tA tB a b, same (GMat tA tB a b) (GMat tA tB a b) = true) -> (forall axis a b, same (GAx BAdd false axis a b) (GAx BAdd false axis a b) = true) ->
    EvalSpec.valid_order ord -> EvalSpec.valid_top top -> TrainSpec.history compat ord top s ->
    (forall u v, loc u = loc v -> u = v) -> (forall v, EvalModel.is_op (EvalModel.nodes s) (loc v) = false) ->
    0 < n -> 0 < b -> (0 < lr)%R -> Forall (fun h => 0 < h) sizes -> db_new Rnum of_nat n sizes scope st = Ok (d, st') ->
    let env := TrainSpec.leaf_env loc s in let env' := TrainSpec.leaf_env loc s' in
    exists vars, db_variables d = Ok (map Some vars) /\
    ((forall v, In v vars -> initialized env st' v) -> ~ In train_in vars -> matrix n b (env train_in) -> fst (env train_in) = [n; b] -> matrix (last sizes 0) b (env train_out) ->
      db_finetune Rnum fresh use INR same d env train_in train_out lr = Ok (cost, us, error) ->
      (forall v u, In (v, u) us -> (forall t, u <> GConst t) -> gshows fresh use loc s (node v) u /\ linked s (node v) cost_node) ->
      frozen_call compat ord top s cost_node (map (fun p => sub_closure (loc (fst p)) (node (fst p)) (snd p)) us) = EvalModel.Done s' tt ->
      let m := n_out sizes b in let f := fun e => logit e vars sizes n (env train_in) in
      TrainSpec.history compat ord top s' /\ EvalModel.is_frozen s' cost_node = false /\
      (forall v, In v vars -> fst (env' v) = fst (env v) /\ length (snd (env' v)) = length (snd (env v)) /\
         forall q, q < length (snd (env v)) -> exists D : nat -> R,
           (forall i, i < m -> derivable_pt_lim (fun x => f (set_elem env v q x) i) (nth q (snd (env v)) 0%R) (D i)) /\
           nth q (snd (env' v)) 0%R = (nth q (snd (env v)) 0 - lr * Sum (fun i => (share (f env) m i - 1) / INR m * D i) m)%R) /\
      (forall v, EvalSpec.leaf s v -> ~ In v (map loc vars) -> EvalModel.val s' v = EvalModel.val s v)).
Proof.
  intros of_nat same fresh use n b sizes scope st d st' lr compat ord top loc node s s' ti to cn cost us error H1 H2 H3 Ho Ht Hh Inj Nop Hn Hb Hl Hs E env env'.
  destruct (C61_finetune_lemma of_nat same fresh use env n b sizes scope st d st' ti to lr H1 H2 H3 Hn Hb Hl Hs E) as (vars & V1 & V2 & V3).
  exists vars. split; [exact V1|]. intros Hi Nt Mt St Mo Ef Hsh Ec. cbv zeta in V3 |- *. destruct (V3 Hi Nt Mt St Mo) as (cost' & us' & error' & tc & te & F1 & _ & _ & _ & _ & F6 & F7).
  rewrite Ef in F1. injection F1 as <- <- <-. clear V3.
  set (l := map (fun p : nat * gexpr => sub_closure (loc (fst p)) (node (fst p)) (snd p)) us) in *.
  assert (Nd : NoDup (map fst us)) by now rewrite F6.
  assert (Hc : forall w k f, In (KNode w k f) l -> linked s k cn).
  { intros w k f Hk. apply in_map_iff in Hk as ([v u] & Eq & Hk). cbn [fst snd] in Eq.
    assert (Nc : forall t, u <> GConst t) by (intros t ->; cbn in Eq; destruct (const_is Rnum t 0%R); discriminate). destruct (Hsh v u Hk Nc) as [_ C].
    replace k with (node v); [exact C|]. destruct u; cbn in Eq; try (injection Eq as _ <- _; reflexivity). now destruct (Nc t). }
  destruct (call_ok compat ord top Ho Ht s cn l s' Hh (targets_nodup loc node Inj us Nd) Hc Ec) as (A & B & C & D & F).
  split; [exact A|]. split; [exact B|]. split.
  - intros v Hin. rewrite <- F6 in Hin. apply in_map_iff in Hin as ([v0 u] & Q & Hk). cbn [fst] in Q. subst v0.
    destruct (F7 v u Hk) as (delta & new & G1 & G2 & G3 & G4 & G5).
    assert (En : env' v = new).
    { assert (Il : In (sub_closure (loc v) (node v) u) l) by (apply in_map_iff; exists (v, u); auto). pose proof (F _ Il) as Fc.
      assert (Dv : forall w t, EvalSpec.denotes s (loc w) (Some t) -> env w = t).
      { intros w t Dw. specialize (Nop w). unfold env, TrainSpec.leaf_env. destruct (nth_error (EvalModel.nodes s) (loc w)) as [[|a f dd]|] eqn:En.
        - now rewrite <- (UpdaterLaws.den_leaf_inv s _ _ En Dw).
        - unfold EvalModel.is_op in Nop. rewrite En in Nop. discriminate.
        - exfalso. clear - Dw En. inversion Dw as [w0 L|w0 a f os vs x [dd L]|]; subst; [unfold EvalSpec.leaf in L|]; congruence. }
      destruct (match u with GConst t => const_is Rnum t 0%R | _ => false end) eqn:Ez.
      - destruct u; try discriminate. cbn [geval] in G1. injection G1 as <-. cbn [DqnModel.assign_sub] in G2. unfold DqnModel.assign_sub in G2. rewrite Ez in G2. cbn [andb] in G2. injection G2 as <-.
        unfold env', env, TrainSpec.leaf_env. specialize (Nop v). destruct (nth_error (EvalModel.nodes s) (loc v)) as [[|a f dd]|] eqn:En.
        + rewrite D; [reflexivity|exact En|]. apply (targets_other loc node Inj us v (GConst t) Nd Hk). cbn. now rewrite Ez.
        + unfold EvalModel.is_op in Nop. rewrite En in Nop. discriminate.
        + assert (X : forall s0, TrainSpec.history compat ord top s0 -> EvalModel.nodes s0 = EvalModel.nodes s -> EvalModel.val s0 (loc v) = None).
          { intros s0 Hs0 Es0. unfold EvalModel.val. replace (nth_error (EvalModel.vals s0) (loc v)) with (@None (option (tens R))); [reflexivity|]. symmetry. apply nth_error_None.
            rewrite (EvalProofs.wf_vals _ (proj1 (TrainProofs.h_Good compat ord top Ho Ht s0 Hs0))), Es0. now apply nth_error_None. }
          now rewrite (X s), (X s').
      - destruct u; cbn [sub_closure] in Fc; try (destruct Fc as (Lw & x & y & z & X1 & X2 & X3 & X4);
          destruct (Hsh v _ Hk ltac:(intros; discriminate)) as [Sh _]; pose proof (gshows_eval fresh use loc s env Dv _ _ _ Sh X1) as Ev; rewrite G1 in Ev; injection Ev as ->;
          assert (Ey : env v = y) by (unfold env, TrainSpec.leaf_env; now rewrite X2); rewrite Ey in *; rewrite X3 in G2; injection G2 as ->; unfold env', TrainSpec.leaf_env; now rewrite X4).
        rewrite Ez in Fc. destruct Fc as (Lw & y & z & X2 & X3 & X4). cbn [geval] in G1. injection G1 as <-.
        assert (Ey : env v = y) by (unfold env, TrainSpec.leaf_env; now rewrite X2). rewrite Ey in *. rewrite X3 in G2. injection G2 as ->. unfold env', TrainSpec.leaf_env. now rewrite X4. }
    rewrite En. split; [exact G3|]. split; [exact G4|]. intros q Hq. destruct (G5 q Hq) as (Dq & D1 & _ & D3). exists Dq. auto.
  - intros v Hv Nv. apply D; [exact Hv|]. intros C'. apply targets_in in C' as (v' & -> & Hv'). apply Nv, in_map. now rewrite <- F6. exact Inj.
Qed.

(** Training a restricted Boltzmann machine called: again the graph may have been used in any
    way before; node [loc ce] is the end of the chain, whose value [t] is whatever was
    sampled, and the update nodes that train makes are nodes of it, in one graph with
    the cost. If the function returns, every parameter has kept its shape and made the step of
    C59 (each element down by the learning rate times the derivative of the cost for the
    parameters and the sample before the call), all at once; the persistent variable, if there
    is one, has the values that the chain node had before the call; nothing else has changed. *)
Lemma C62_rbm_lemma :
  forall (of_nat : nat -> R) same fresh use (n h b b' : nat) scope st m st' lr compat ord top loc node (s s' : EvalModel.estate (tens R)) input ce t cost_node pers us,
    (forall x y, same x y = true -> x = y) ->
    EvalSpec.valid_order ord -> EvalSpec.valid_top top -> TrainSpec.history compat ord top s ->
    (forall u v, loc u = loc v -> u = v) -> (forall v, v <> ce -> EvalModel.is_op (EvalModel.nodes s) (loc v) = false) -> EvalSpec.denotes s (loc ce) (Some t) ->
    0 < n -> 0 < h -> (0 < lr)%R -> rbm_new Rnum of_nat n h scope st = (m, st') ->
    let env := fun v => if v =? ce then t else TrainSpec.leaf_env loc s v in let env' := TrainSpec.leaf_env loc s' in
    exists w hb vb, rbm_variables m = [Some w; Some hb; Some vb] /\
    (initialized env st' w -> initialized env st' hb -> initialized env st' vb -> ~ In ce [w; hb; vb] ->
      NetLaws.factor fresh use env n b input -> matrix n b' t -> input <> EVar ce -> (forall v, In v [w; hb; vb] -> has_leaf v input = false) ->
      (forall pv it, pers = Some (pv, it) -> ~ In pv [ce; w; hb; vb] /\ linked s it cost_node) ->
      rbm_updates Rnum fresh use INR same m env lr input (EVar ce) = Ok us ->
      (forall v u, In (v, u) us -> (forall c, u <> GConst c) -> gshows fresh use loc s (node v) u /\ linked s (node v) cost_node) ->
      frozen_call compat ord top s cost_node (map (fun p => sub_closure (loc (fst p)) (node (fst p)) (snd p)) us ++ match pers with Some (pv, it) => [set_closure (loc pv) it] | None => [] end) = EvalModel.Done s' tt ->
      TrainSpec.history compat ord top s' /\ EvalModel.is_frozen s' cost_node = false /\
      (exists cost, rbm_cost Rnum same m input (EVar ce) = Ok cost /\
       forall v, In v [w; hb; vb] -> fst (env' v) = fst (env v) /\ length (snd (env' v)) = length (snd (env v)) /\
         forall k, k < length (snd (env v)) -> exists slope,
           derivable_pt_lim (fun x => elem (geval Rnum fresh use INR (set_elem env v k x) cost) 0) (nth k (snd (env v)) 0%R) slope /\
           nth k (snd (env' v)) 0%R = (nth k (snd (env v)) 0 - lr * slope)%R) /\
      (forall pv it, pers = Some (pv, it) -> exists x, EvalSpec.denotes s it (Some x) /\ n_elems (fst x) = n_elems (fst (env pv)) /\ fst (env' pv) = fst (env pv) /\ length (snd (env' pv)) = length (snd (env pv)) /\
         forall k, k < n_elems (fst (env pv)) -> nth_error (snd (env' pv)) k = nth_error (snd x) k) /\
      (forall v, EvalSpec.leaf s v -> ~ In v (map loc [w; hb; vb]) -> (forall pv it, pers = Some (pv, it) -> v <> loc pv) -> EvalModel.val s' v = EvalModel.val s v)).
Proof.
  intros of_nat same fresh use n h b b' scope st m st' lr compat ord top loc node s s' input ce t cn pers us H1 Ho Ht Hh Inj Nop Dc Hn Hp Hl E env env'.
  destruct (C59_updates_lemma of_nat same fresh use env n h b b' scope st m st' lr H1 Hn Hp Hl E) as (w & hb & vb & V1 & V3).
  exists w, hb, vb. split; [exact V1|]. intros I1 I2 I3 Nce Fi Mt Ne Fr Hps Eu Hsh Ec.
  assert (Ece : env ce = t) by (unfold env; now rewrite Nat.eqb_refl).
  destruct (V3 I1 I2 I3 input (EVar ce) Fi) as (cost & us' & Q1 & Q2 & Q3 & Q4).
  { split; [|exact I]. exists t. split; [cbn [eval]; now rewrite Ece|exact Mt]. }
  { exact Ne. }
  { intros v Hv. split; [now apply Fr|]. cbn [has_leaf]. apply Nat.eqb_neq. intros ->. contradiction. }
  rewrite Eu in Q2. injection Q2 as <-. clear V3.
  set (ll := map (fun p : nat * gexpr => sub_closure (loc (fst p)) (node (fst p)) (snd p)) us) in *.
  set (lp := match pers with Some (pv, it) => [set_closure (loc pv) it] | None => [] end) in *.
  assert (Nd : NoDup (map fst us)).
  { rewrite Q3. destruct (rbm_new_vars _ _ _ _ _ _ _ _ E) as (w' & hb' & vb' & v1 & v2 & v3 & A1 & A2 & A3 & _). unfold rbm_variables in V1. rewrite A1, A2, A3 in V1. injection V1 as <- <- <-.
    destruct (rbm_new_distinct _ _ _ _ _ _ _ _ _ _ _ E A1 A2 A3) as (N1 & N2 & N3). repeat constructor; cbn; intuition congruence. }
  assert (Tp : forall x, In x (flat_map target lp) -> exists pv it, pers = Some (pv, it) /\ x = loc pv).
  { intros x. unfold lp. destruct pers as [[pv it]|]; cbn; [|intros []]. intros [<- |[]]. eauto. }
  assert (Nt : NoDup (flat_map target (ll ++ lp))).
  { rewrite flat_map_app. pose proof (targets_nodup loc node Inj us Nd) as N1. unfold lp. destruct pers as [[pv it]|]; cbn [flat_map target set_closure app]; [|now rewrite app_nil_r].
    apply (Permutation_NoDup (Permutation_app_comm [loc pv] _)). cbn [app]. constructor; [|exact N1]. intros C. apply targets_in in C as (v & C & Hv); [|exact Inj]. apply Inj in C. subst v. rewrite Q3 in Hv. apply (proj1 (Hps pv it eq_refl)). now right. }
  assert (Hc : forall w0 k f, In (KNode w0 k f) (ll ++ lp) -> linked s k cn).
  { intros w0 k f Hk. apply in_app_iff in Hk as [Hk|Hk].
    - apply in_map_iff in Hk as ([v u] & Eq & Hk). cbn [fst snd] in Eq.
      assert (Nc : forall c, u <> GConst c) by (intros c ->; cbn in Eq; destruct (const_is Rnum c 0%R); discriminate). destruct (Hsh v u Hk Nc) as [_ C].
      replace k with (node v); [exact C|]. destruct u; cbn in Eq; try (injection Eq as _ <- _; reflexivity). now destruct (Nc t0).
    - unfold lp in Hk. destruct pers as [[pv it]|]; [|destruct Hk]. destruct Hk as [Hk|[]]. unfold set_closure in Hk. injection Hk as _ <- _. apply (Hps pv it eq_refl). }
  destruct (call_ok compat ord top Ho Ht s cn (ll ++ lp) s' Hh Nt Hc Ec) as (A & B & C & D & F).
  assert (Dv : forall v x, EvalSpec.denotes s (loc v) (Some x) -> env v = x).
  { intros v x Dw. destruct (Nat.eq_dec v ce) as [-> |Nv].
    - rewrite Ece. destruct (TrainProofs.h_run_on compat ord top s Hh) as [ops Eo]. pose proof (EvalLaws.C29_value_unique_lemma _ compat ord top ops s _ _ _ Ho Ht Eo Dc Dw) as Q. congruence.
    - specialize (Nop v Nv). unfold env. rewrite (proj2 (Nat.eqb_neq v ce) Nv). unfold TrainSpec.leaf_env. destruct (nth_error (EvalModel.nodes s) (loc v)) as [[|a f dd]|] eqn:En.
      + now rewrite <- (UpdaterLaws.den_leaf_inv s _ _ En Dw).
      + unfold EvalModel.is_op in Nop. rewrite En in Nop. discriminate.
      + exfalso. clear - Dw En. inversion Dw as [w0 L|w0 a f os vs x0 [dd L]|]; subst; [unfold EvalSpec.leaf in L|]; congruence. }
  assert (Le : forall v y, v <> ce -> EvalModel.val s (loc v) = Some y -> env v = y).
  { intros v y Nv Q. unfold env. rewrite (proj2 (Nat.eqb_neq v ce) Nv). unfold TrainSpec.leaf_env. now rewrite Q. }
  split; [exact A|]. split; [exact B|]. split; [|split].
  - exists cost. split; [exact Q1|]. intros v Hin.
    assert (Nv : v <> ce) by (intros ->; contradiction).
    assert (Iv : initialized env st' v) by (destruct Hin as [<- |[<- |[<- |[]]]]; assumption).
    assert (Lv : length (snd (env v)) = n_elems (fst (env v))) by (destruct Iv as (vv & _ & S1 & S2); congruence).
    rewrite <- Q3 in Hin. apply in_map_iff in Hin as ([v0 u] & Q & Hk). cbn [fst] in Q. subst v0.
    destruct (Q4 v u Hk) as (d & new & G1 & G2 & G3 & G4 & G5).
    assert (Ld : length (snd d) = length (snd (env v))) by (unfold TrainSpec.tensor_sub in G2; destruct (length (snd d) =? length (snd (env v))) eqn:Q; [now apply Nat.eqb_eq in Q|discriminate]).
    assert (Gn : forall k, k < length (snd (env v)) -> nth k (snd new) 0%R = (nth k (snd (env v)) 0 - nth k (snd d) 0)%R).
    { intros k Hk'. unfold TrainSpec.tensor_sub in G2. rewrite Ld, Nat.eqb_refl in G2. injection G2 as <-. cbn [snd].
      apply nth_error_nth. rewrite nth_error_map. rewrite (nth_error_nth' (combine (snd (env v)) (snd d)) (0, 0)%R) by (rewrite combine_length; lia). cbn [option_map]. rewrite combine_nth by lia. reflexivity. }
    assert (En : exists con, DqnModel.assign_sub (env v) (d, con) = Ok (env' v)).
    { assert (Il : In (sub_closure (loc v) (node v) u) (ll ++ lp)) by (apply in_app_iff; left; apply in_map_iff; exists (v, u); auto). pose proof (F _ Il) as Fc.
      destruct (match u with GConst c => const_is Rnum c 0%R | _ => false end) eqn:Ez.
      - exists true. destruct u; try discriminate. cbn [geval] in G1. injection G1 as <-. unfold DqnModel.assign_sub. rewrite Ez. cbn [andb]. f_equal.
        unfold env', env. rewrite (proj2 (Nat.eqb_neq v ce) Nv). unfold TrainSpec.leaf_env. specialize (Nop v Nv). destruct (nth_error (EvalModel.nodes s) (loc v)) as [[|a f dd]|] eqn:En.
        + rewrite D; [reflexivity|exact En|]. rewrite flat_map_app. intros X. apply in_app_iff in X as [X|X].
          * revert X. apply (targets_other loc node Inj us v (GConst t0) Nd Hk). cbn. now rewrite Ez.
          * apply Tp in X as (pv & it & P1 & P2). apply Inj in P2. subst pv. apply (proj1 (Hps v it P1)). right. rewrite <- Q3. apply (in_map fst) in Hk. exact Hk.
        + unfold EvalModel.is_op in Nop. rewrite En in Nop. discriminate.
        + assert (X : forall s0, TrainSpec.history compat ord top s0 -> EvalModel.nodes s0 = EvalModel.nodes s -> EvalModel.val s0 (loc v) = None).
          { intros s0 Hs0 Es0. unfold EvalModel.val. replace (nth_error (EvalModel.vals s0) (loc v)) with (@None (option (tens R))); [reflexivity|]. symmetry. apply nth_error_None.
            rewrite (EvalProofs.wf_vals _ (proj1 (TrainProofs.h_Good compat ord top Ho Ht s0 Hs0))), Es0. now apply nth_error_None. }
          now rewrite (X s), (X s').
      - destruct u; cbn [sub_closure] in Fc; try (exists false; destruct Fc as (Lw & x & y & z & X1 & X2 & X3 & X4);
          destruct (Hsh v _ Hk ltac:(intros; discriminate)) as [Sh _]; pose proof (gshows_eval fresh use loc s env Dv _ _ _ Sh X1) as Ev; rewrite G1 in Ev; injection Ev as ->;
          rewrite (Le v y Nv X2), X3; unfold env', TrainSpec.leaf_env; now rewrite X4).
        exists true. rewrite Ez in Fc. destruct Fc as (Lw & y & z & X2 & X3 & X4). cbn [geval] in G1. injection G1 as <-.
        rewrite (Le v y Nv X2), X3. unfold env', TrainSpec.leaf_env. now rewrite X4. }
    destruct En as [con En]. destruct (sub_inv' _ _ _ _ En Lv Ld) as (R1 & R2 & R3). split; [exact R1|]. split; [exact R2|]. intros k Hk'.
    destruct (G5 k Hk') as (slope & D1 & D2). exists slope. split; [exact D1|]. rewrite R3 by exact Hk'. rewrite <- D2. symmetry. now apply Gn.
  - intros pv it Ep. destruct (Hps pv it Ep) as [Np _]. assert (Il : In (set_closure (loc pv) it) (ll ++ lp)) by (apply in_app_iff; right; unfold lp; rewrite Ep; now left).
    destruct (F _ Il) as (Lw & x & y & z & X1 & X2 & X3 & X4). assert (Npc : pv <> ce) by (intros ->; apply Np; now left).
    rewrite (Le pv y Npc X2). destruct (n_elems (fst x) =? n_elems (fst y)) eqn:Qe; [|discriminate]. cbn [assert_ bind] in X3. apply Nat.eqb_eq in Qe.
    destruct (for_ (n_elems (fst x)) _ (snd y)) as [d| | |] eqn:Ed; try discriminate. cbn [bind] in X3. injection X3 as <-. destruct (copy_inv _ _ _ _ Ed) as (R1 & R2 & _).
    exists x. split; [exact X1|]. split; [exact Qe|]. replace (env' pv) with (fst y, d) by (unfold env', TrainSpec.leaf_env; now rewrite X4). cbn [fst snd]. split; [reflexivity|]. split; [exact R1|]. rewrite <- Qe. exact R2.
  - intros v Hv Nv Npv. apply D; [exact Hv|]. rewrite flat_map_app. intros C'. apply in_app_iff in C' as [C'|C'].
    + apply targets_in in C' as (v' & -> & Hv'); [|exact Inj]. apply Nv, in_map. now rewrite <- Q3.
    + apply Tp in C' as (pv & it & P1 & P2). now apply (Npv pv it).
Qed.

(** Two variables 10 and 20 and their sum, frozen; the first is decreased by 1/10 of the sum, the
    second becomes the sum of the sum and the first. Both use the values before the call. *)
Lemma C62_nonvacuous_lemma :
  let ops := [EvalModel.ELeaf (Some 10); EvalModel.ELeaf (Some 20); EvalModel.EOp [0; 1] EvalLaws.sum_all; EvalModel.EOp [2; 0] EvalLaws.sum_all] in
  let l := [KNode 0 2 (fun y x => Ok (y - x / 10)); KNode 1 3 (fun y x => Ok x)] in
  exists s s', EvalModel.run (fun _ _ => true) EvalModel.audience EvalSpec.least EvalModel.einit ops = EvalModel.Done s tt /\ Forall EvalSpec.plain ops /\
    NoDup (flat_map target l) /\ (forall w n f, In (KNode w n f) l -> linked s n 2) /\
    frozen_call (fun _ _ => true) EvalModel.audience EvalSpec.least s 2 l = EvalModel.Done s' tt /\ EvalModel.val s' 0 = Some 7 /\ EvalModel.val s' 1 = Some 40.
Proof.
  cbv zeta. eexists. eexists. split; [vm_compute; reflexivity|]. split; [repeat constructor|]. split; [repeat constructor; cbn; intuition discriminate|]. split.
  - intros w n f Hi. destruct Hi as [Hi|[Hi|[]]]; injection Hi as _ <- _.
    + eapply link_self. eexists. reflexivity.
    + apply link_sym. eapply link_arg; [eexists; reflexivity|eexists; reflexivity|now left].
  - split; [vm_compute; reflexivity|]. split; reflexivity.
Qed.

(** Finding: for a node outside the cost's graph the window has no effect; a function that
    uses such a node sees what the functions before it have written. *)
Lemma C62_other_graph_refuted_lemma :
  let ops := [EvalModel.ELeaf (Some 10); EvalModel.ELeaf (Some 20); EvalModel.EOp [0; 1] EvalLaws.sum_all; EvalModel.EOp [0; 0] EvalLaws.sum_all] in
  let l := [KNode 0 2 (fun y x => Ok (y - x / 10)); KNode 1 3 (fun y x => Ok x)] in
  exists s s', EvalModel.run (fun _ _ => true) EvalModel.audience EvalSpec.least EvalModel.einit ops = EvalModel.Done s tt /\
    frozen_call (fun _ _ => true) EvalModel.audience EvalSpec.least s 2 l = EvalModel.Done s' tt /\ EvalSpec.denotes s 3 (Some 20) /\ EvalModel.val s' 1 = Some 14.
Proof.
  cbv zeta. eexists. eexists. split; [vm_compute; reflexivity|]. split; [vm_compute; reflexivity|]. split; [|reflexivity].
  eapply (EvalSpec.den_op _ 3 [0; 0] EvalLaws.sum_all [Some 10; Some 10] [10; 10] 20); [eexists; reflexivity| |reflexivity|reflexivity].
  constructor; [refine (EvalSpec.den_leaf _ 0 _); reflexivity|]. constructor; [refine (EvalSpec.den_leaf _ 0 _); reflexivity|constructor].
Qed.
