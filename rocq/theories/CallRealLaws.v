(** C62: on every network there is a graph on which the training functions return. *)
From Coq Require Import String Reals Lra Lia FunctionalExtensionality Permutation.
From Verif Require Import Common CseModel ShapeModel ShapeProofs ElemModel ElemProofs NumSpec RealNum GradModel GradSpec MatrixSpec MlpSpec MlpModel MlpLaws GroupModel RbmTrainModel RbmTrainLaws DbSpec DbModel DbNet DbLaws.
From Verif Require ElemSpec EvalLaws UpdaterLaws EvalModel EvalSpec EvalProofs TrainSpec TrainProofs DqnModel DqnProofs NetLaws NetMlpProofs DbStep.
From Verif Require Import CallModel CallSpec CallProofs CallLaws.
From Verif Require MatrixProofs MatrixProofs CallReal CallBuild CseFullProofs RbmTrainProofs RbmTrainCost.
Local Open Scope list_scope.

Lemma scaled_node lr (a u : @gexpr R) : (0 < lr)%R -> lr <> 1%R -> gunary Rnum (UMulL lr) a = Ok u -> (exists t, u = GConst t) \/ CallBuild.is_node u = true.
Proof.
  intros H0 H1 E. cbn [gunary] in E. change (n_zero Rnum) with 0%R in E. change (n_one Rnum) with 1%R in E. change (n_neg Rnum 1%R) with (-(1))%R in E.
  rewrite ?(NetMlpProofs.Reqb_no 0 lr), ?(NetMlpProofs.Reqb_no (- (1)) lr), ?(NetMlpProofs.Reqb_no 1 lr) in E by lra.
  destruct a; cbn [gfold] in E; try (injection E as <-; right; reflexivity). destruct (_ || _); [injection E as <-; eauto|]. destruct (const_is _ _ _); injection E as <-; eauto.
Qed.
Lemma finetune_in fresh use same vars env lr cost us : finetune_from Rnum fresh use INR same vars env lr cost = Ok us -> forall v u, In (v, u) us -> exists g, gunary Rnum (UMulL lr) g = Ok u.
Proof.
  revert us. induction vars as [|p vars IH]; intros us E v u Hi; [cbn in E; injection E as <-; destruct Hi|]. cbn [finetune_from] in E.
  destruct (ptr_of p) as [q| | |]; try discriminate. cbn [bind] in E. destruct (gderive _ _ _ _ _ _ _ _) as [g| | |]; try discriminate. cbn [bind] in E.
  destruct (gunary Rnum (UMulL lr) g) as [w| | |] eqn:Eg; try discriminate. cbn [bind] in E. destruct (finetune_from Rnum fresh use INR same vars env lr cost) as [us'| | |]; try discriminate. cbn [bind] in E. injection E as <-.
  destruct Hi as [Q|Hi]; [injection Q as <- <-; eauto|]. eapply IH; eauto.
Qed.

(** the graph of a cost and of the update nodes *)
Lemma realise fresh use ord top (env : nat -> tens R) (K0 : nat) cost tc (us : list (nat * @gexpr R)) :
  EvalSpec.valid_order ord -> EvalSpec.valid_top top -> (forall v, K0 <= v -> env v = ([], [])) ->
  CallBuild.is_node cost = true -> geval Rnum fresh use INR env cost = Ok tc -> NoDup (map fst us) ->
  (forall v u, In (v, u) us -> ((exists t, u = GConst t) \/ CallBuild.is_node u = true) /\ exists d, geval Rnum fresh use INR env u = Ok d) ->
  exists K loc node s cn, CallReal.calm ord top s /\ K0 <= K /\ (forall u v, loc u = loc v -> u = v) /\ (forall v, EvalModel.is_op (EvalModel.nodes s) (loc v) = false) /\
    TrainSpec.leaf_env loc s = env /\ (forall v, v < K -> EvalSpec.leaf s (loc v) /\ EvalModel.val s (loc v) = Some (env v)) /\ gshows fresh use loc s cn cost /\ EvalModel.is_op (EvalModel.nodes s) cn = true /\
    (forall v, EvalModel.is_op (EvalModel.nodes s) v = true -> linked s v cn) /\
    forall v u, In (v, u) us -> gshows fresh use loc s (node v) u /\ (forall d, geval Rnum fresh use INR env u = Ok d -> EvalSpec.denotes s (node v) (Some d)) /\ ((forall t, u <> GConst t) -> EvalModel.is_op (EvalModel.nodes s) (node v) = true).
Proof.
  intros Ho Ht He Nc Ec Nd Hu.
  set (K := Nat.max K0 (Nat.max (CallBuild.gbound cost) (list_max (map (fun p => CallBuild.gbound (snd p)) us)))).
  assert (Hb : forall v u, In (v, u) us -> CallBuild.gbound u <= K).
  { intros v u Hi. assert (X : CallBuild.gbound u <= list_max (map (fun p => CallBuild.gbound (snd p)) us)); [|unfold K; lia].
    pose proof (list_max_le (map (fun p : nat * gexpr => CallBuild.gbound (snd p)) us) (list_max (map (fun p => CallBuild.gbound (snd p)) us))) as [X _]. specialize (X (le_n _)). rewrite Forall_forall in X. apply X. apply in_map_iff. exists (v, u). auto. }
  destruct (CallBuild.leaves ord top Ho Ht env K) as (s1 & C1 & B1 & L1).
  destruct (CallBuild.build fresh use ord top Ho Ht env K cost s1 C1 B1 ltac:(unfold K; lia) tc Ec) as (s2 & cn & C2 & G2 & L2 & D2 & S2 & O2).
  pose proof (CallBuild.based_grows env K s1 s2 B1 G2) as B2.
  destruct (CallBuild.builds fresh use ord top Ho Ht env K us s2 C2 B2) as (s3 & node & C3 & G3 & H3); [intros v u Hi; split; [now apply (Hb v)|apply (Hu v u Hi)]|exact Nd|].
  pose proof (CallBuild.based_grows env K s2 s3 B2 G3) as B3.
  assert (Oc : EvalModel.is_op (EvalModel.nodes s3) cn = true).
  { specialize (O2 Nc). destruct (EvalProofs.is_op_inv _ _ O2) as (a & g & dd & Hx). eapply EvalProofs.is_op_intro. eapply CallReal.grows_node; eauto. }
  destruct (CallReal.glue ord top Ho Ht s3 cn ([], []) C3 Oc) as (s & C & G & O & Lk).
  pose proof (CallBuild.based_grows env K s3 s B3 G) as B. pose proof (CallReal.grows_le s3 s G) as Le. pose proof (CallReal.grows_le s2 s3 G3) as Le2.
  set (M := List.length (EvalModel.nodes s)). exists K, (CallBuild.place K M), node, s, cn.
  assert (KM : K <= M) by apply B.
  split; [exact C|]. split; [unfold K; lia|].
  split. { intros u v. unfold CallBuild.place. destruct (Nat.ltb_spec u K), (Nat.ltb_spec v K); lia. }
  assert (Pl : forall v, v < K -> CallBuild.place K M v = v) by (intros v Hv; unfold CallBuild.place; destruct (Nat.ltb_spec v K); lia).
  assert (Ph : forall v, K <= v -> nth_error (EvalModel.nodes s) (CallBuild.place K M v) = None) by (intros v Hv; apply nth_error_None; unfold CallBuild.place; destruct (Nat.ltb_spec v K); unfold M in *; lia).
  split. { intros v. destruct (Nat.lt_ge_cases v K) as [Hv|Hv]; [rewrite Pl by exact Hv; destruct (proj2 B v Hv) as [Hl _]; unfold EvalModel.is_op; unfold EvalSpec.leaf in Hl; now rewrite Hl|]. unfold EvalModel.is_op. now rewrite Ph. }
  split. { apply functional_extensionality. intros v. unfold TrainSpec.leaf_env. destruct (Nat.lt_ge_cases v K) as [Hv|Hv].
    - rewrite Pl by exact Hv. destruct (proj2 B v Hv) as [_ Hl]. now rewrite Hl.
    - replace (EvalModel.val s (CallBuild.place K M v)) with (@None (tens R)); [symmetry; apply He; unfold K in Hv; lia|]. symmetry. unfold EvalModel.val.
      replace (nth_error (EvalModel.vals s) (CallBuild.place K M v)) with (@None (option (tens R))); [reflexivity|]. symmetry. apply nth_error_None. rewrite (EvalProofs.wf_vals _ (CallReal.calm_WF ord top Ho Ht s C)). apply nth_error_None. now apply Ph. }
  split. { intros v Hv. rewrite Pl by exact Hv. now apply B. }
  split. { apply (CallBuild.gshows_grows fresh use _ s3 s G). apply (CallBuild.gshows_grows fresh use _ s2 s3 G3). apply S2. unfold M. lia. }
  split; [exact O|]. split; [exact Lk|].
  intros v u Hi. destruct (H3 v u Hi) as (N1 & N2 & N3 & N4). split; [apply (CallBuild.gshows_grows fresh use _ s3 s G), N3; unfold M; lia|]. split.
  - intros dd Ed. apply (CallReal.grows_den s3 s G (CallReal.calm_acyclic ord top Ho Ht s3 C3)). now apply N2.
  - intros Hc. destruct (Hu v u Hi) as [[[t Q]|Q] _]; [now destruct (Hc t)|]. specialize (N4 Q). destruct (EvalProofs.is_op_inv _ _ N4) as (a & g & dd & Hx). eapply EvalProofs.is_op_intro. eapply CallReal.grows_node; eauto.
Qed.

(** For every deep belief network, all parameters, inputs and labels, there is a graph with
    which the hypotheses of C62_finetune hold, in whatever order notifications and updates are
    processed, and on it the call returns. *)
Lemma C62_finetune_returns_lemma :
  forall (of_nat : nat -> R) same fresh use (n b : nat) sizes scope st d st' lr ord top env0 train_in train_out,
    (forall a b, same a b = true -> a = b) -> (forall tA tB a b, same (GMat tA tB a b) (GMat tA tB a b) = true) -> (forall axis a b, same (GAx BAdd false axis a b) (GAx BAdd false axis a b) = true) ->
    EvalSpec.valid_order ord -> EvalSpec.valid_top top ->
    0 < n -> 0 < b -> (0 < lr)%R -> lr <> 1%R -> Forall (fun h => 0 < h) sizes -> db_new Rnum of_nat n sizes scope st = Ok (d, st') ->
    exists vars, db_variables d = Ok (map Some vars) /\
    ((forall v, In v vars -> initialized env0 st' v) -> ~ In train_in vars -> matrix n b (env0 train_in) -> fst (env0 train_in) = [n; b] -> matrix (last sizes 0) b (env0 train_out) ->
      exists loc node s s' cost_node cost us error, let env := TrainSpec.leaf_env loc s in
        TrainSpec.history (fun _ _ => true) ord top s /\ (forall u v, loc u = loc v -> u = v) /\ (forall v, EvalModel.is_op (EvalModel.nodes s) (loc v) = false) /\
        (forall v, In v (train_in :: train_out :: vars) -> env v = env0 v) /\
        db_finetune Rnum fresh use INR same d env train_in train_out lr = Ok (cost, us, error) /\
        gshows fresh use loc s cost_node cost /\
        (forall v u, In (v, u) us -> (forall t, u <> GConst t) -> gshows fresh use loc s (node v) u /\ linked s (node v) cost_node) /\
        frozen_call (fun _ _ => true) ord top s cost_node (map (fun p => sub_closure (loc (fst p)) (node (fst p)) (snd p)) us) = EvalModel.Done s' tt).
Proof.
  intros of_nat same fresh use n b sizes scope st d st' lr ord top env0 ti to H1 H2 H3 Ho Ht Hn Hb Hl Hl1 Hs E.
  set (K0v := fun vars : list nat => S (list_max (ti :: to :: vars))).
  destruct (C61_finetune_lemma of_nat same fresh use env0 n b sizes scope st d st' ti to lr H1 H2 H3 Hn Hb Hl Hs E) as (vars & V1 & V2 & _).
  exists vars. split; [exact V1|]. intros Hi Nt Mt St Mo.
  set (K0 := S (list_max (ti :: to :: vars))).
  assert (Bd : forall v, In v (ti :: to :: vars) -> v < K0).
  { intros v Hv. unfold K0. pose proof (list_max_le (ti :: to :: vars) (list_max (ti :: to :: vars))) as [X _]. specialize (X (le_n _)). rewrite Forall_forall in X. specialize (X v Hv). lia. }
  set (env := fun v => if v <? K0 then env0 v else ([], [])).
  assert (Ee : forall v, In v (ti :: to :: vars) -> env v = env0 v) by (intros v Hv; unfold env; now rewrite (proj2 (Nat.ltb_lt v K0) (Bd v Hv))).
  assert (Hi' : forall v, In v vars -> initialized env st' v) by (intros v Hv; unfold initialized; rewrite Ee by (right; now right); now apply Hi).
  destruct (DbStep.finetune_ok of_nat same fresh use env n b sizes scope st d st' ti to lr H1 H2 H3 Hn Hb Hl Hs E) as (vars' & V1' & _ & V3).
  assert (vars' = vars). { rewrite V1 in V1'. injection V1' as V1'. symmetry. revert V1'. clear. revert vars'. induction vars as [|a l IH]; intros [|a' l'] H; try discriminate; [reflexivity|]. cbn in H. injection H as -> H. f_equal. now apply IH. }
  subst vars'. cbv zeta in V3. destruct (V3 Hi' Nt) as (out & t & cost & us & error & tc & te & [z Hz] & _ & _ & _ & _ & F1 & F2 & _ & _ & _ & F6 & F7).
  { rewrite Ee by now left. exact Mt. } { rewrite Ee by now left. exact St. } { rewrite Ee by (right; now left). exact Mo. }
  assert (Nd : NoDup (map fst us)) by now rewrite F6.
  assert (Gs : forall v u, In (v, u) us -> exists g, gunary Rnum (UMulL lr) g = Ok u).
  { clear - F1. unfold db_finetune in F1. repeat (match type of F1 with bind ?x _ = Ok _ => let Q := fresh "Q" in destruct x eqn:Q; try discriminate F1; cbn [bind] in F1 end). injection F1 as <- <- <-. intros v u. eapply finetune_in; eauto. }
  destruct (realise fresh use ord top env K0 cost tc us Ho Ht) as (K & loc & node & s & cn & C & HK & Inj & Nop & Le & Vl & Sc & Oc & Lk & Hu); auto.
  { intros v Hv. unfold env. now rewrite (proj2 (Nat.ltb_ge v K0) Hv). }
  { now rewrite Hz. }
  { intros v u Hin. split; [destruct (Gs v u Hin) as [g Eg]; exact (scaled_node lr g u Hl Hl1 Eg)|]. destruct (F7 v u Hin) as (dd & new & G1 & _). eauto. }
  destruct (CallReal.call_runs ord top Ho Ht s cn (map (fun p : nat * gexpr => sub_closure (loc (fst p)) (node (fst p)) (snd p)) us) C Oc Lk) as [s' Es'].
  { now apply targets_nodup. }
  { intros c Hc. apply in_map_iff in Hc as ([v u] & <- & Hk). cbn [fst snd]. destruct (F7 v u Hk) as (dd & new & G1 & G2 & _). destruct (Hu v u Hk) as (_ & U2 & U3). specialize (U2 dd G1).
    assert (Hv : v < K) by (assert (v < K0); [apply Bd; right; right; rewrite <- F6; apply (in_map fst) in Hk; exact Hk|lia]). destruct (Vl v Hv) as [Lv Ev].
    destruct u; cbn [sub_closure CallReal.fits] in *; try (split; [exact Lv|]; split; [apply U3; intros; discriminate|]; exists dd, (env v), new; auto; fail).
    cbn [geval] in G1. injection G1 as <-. destruct (const_is Rnum t0 0%R) eqn:Z; cbn [CallReal.fits]; [exact Logic.I|]. split; [exact Lv|]. exists (env v), new. auto. }
  exists loc, node, s, s', cn, cost, us, error. cbv zeta. rewrite Le. split; [exact (CallReal.c_hist ord top s C)|]. split; [exact Inj|]. split; [exact Nop|]. split; [exact Ee|]. split; [exact F1|]. split; [exact Sc|]. split; [|exact Es'].
  intros v u Hin Nc. destruct (Hu v u Hin) as (U1 & _ & U3). split; [exact U1|]. apply Lk. now apply U3.
Qed.

Lemma sub_runs (t d : tens R) con : length (snd t) = n_elems (fst t) -> length (snd d) = length (snd t) -> (con = false -> length (snd d) = n_elems (fst d)) -> exists new, DqnModel.assign_sub t (d, con) = Ok new.
Proof.
  intros Lt Ld Wd. destruct con.
  - unfold DqnModel.assign_sub. destruct (const_is Rnum d 0%R); cbn [andb]; [eauto|]. replace (n_elems (fst t) <=? length (snd d)) with true by (symmetry; apply Nat.leb_le; lia). cbn [assert_ bind].
    rewrite DqnProofs.sub_loop by lia. cbn [bind]. eauto.
  - destruct (DbStep.sub_ok t d false eq_refl Lt (Wd eq_refl) Ld) as (new & E & _). eauto.
Qed.
Lemma copy_runs {A} (x : list A) n : forall y, n <= length x -> n <= length y -> exists d, for_ n (fun i d => z <- rd x i ;; wr d i z) y = Ok d.
Proof.
  induction n as [|n IH]; intros y Hx Hy; [exists y; reflexivity|]. destruct (IH y ltac:(lia) ltac:(lia)) as [d E]. rewrite for_succ, E. cbn [bind].
  pose proof (copy_inv x n y d E) as (L & _). unfold rd. destruct (nth_error x n) as [z|] eqn:Ez; [|apply nth_error_None in Ez; lia]. cbn [bind]. unfold wr. rewrite (proj2 (Nat.ltb_lt n (length d))) by lia. eauto.
Qed.

(** The same for training restricted Boltzmann machines, with a persistent chain. *)
Lemma C62_rbm_returns_lemma :
  forall (of_nat : nat -> R) same fresh use (n h b b' : nat) scope st m st' lr ord top env0 vi ce pv,
    (forall x y, same x y = true -> x = y) -> EvalSpec.valid_order ord -> EvalSpec.valid_top top ->
    0 < n -> 0 < h -> (0 < lr)%R -> lr <> 1%R -> rbm_new Rnum of_nat n h scope st = (m, st') ->
    exists w hb vb, rbm_variables m = [Some w; Some hb; Some vb] /\
    (initialized env0 st' w -> initialized env0 st' hb -> initialized env0 st' vb -> NoDup [vi; ce; pv; w; hb; vb] ->
      matrix n b (env0 vi) -> matrix n b' (env0 ce) -> matrix h b' (env0 pv) ->
      exists loc node s s' cost_node cost us it, let env := fun v => if v =? ce then env0 ce else TrainSpec.leaf_env loc s v in
        TrainSpec.history (fun _ _ => true) ord top s /\ (forall u v, loc u = loc v -> u = v) /\ (forall v, v <> ce -> EvalModel.is_op (EvalModel.nodes s) (loc v) = false) /\
        EvalSpec.denotes s (loc ce) (Some (env0 ce)) /\ (forall v, In v [vi; ce; pv; w; hb; vb] -> env v = env0 v) /\
        rbm_cost Rnum same m (EVar vi) (EVar ce) = Ok cost /\ rbm_updates Rnum fresh use INR same m env lr (EVar vi) (EVar ce) = Ok us /\
        NetLaws.factor fresh use env n b (EVar vi) /\ (forall v, In v [w; hb; vb] -> has_leaf v (@EVar R vi) = false) /\
        gshows fresh use loc s cost_node cost /\ linked s it cost_node /\
        (forall v u, In (v, u) us -> (forall t, u <> GConst t) -> gshows fresh use loc s (node v) u /\ linked s (node v) cost_node) /\
        frozen_call (fun _ _ => true) ord top s cost_node (map (fun p => sub_closure (loc (fst p)) (node (fst p)) (snd p)) us ++ [set_closure (loc pv) it]) = EvalModel.Done s' tt).
Proof.
  intros of_nat same fresh use n h b b' scope st m st' lr ord top env0 vi ce pv H1 Ho Ht Hn Hp Hl Hl1 E.
  destruct (rbm_new_vars _ _ _ _ _ _ _ _ E) as (w & hb & vb & v1 & v2 & v3 & A1 & A2 & A3 & D1 & S1 & D2 & S2 & D3 & S3).
  destruct (rbm_new_distinct _ _ _ _ _ _ _ _ _ _ _ E A1 A2 A3) as (N1 & N2 & N3).
  exists w, hb, vb. split; [unfold rbm_variables; now rewrite A1, A2, A3|]. intros I1 I2 I3 Nd Mi Mc Mp.
  set (K0 := S (list_max [vi; ce; pv; w; hb; vb])).
  assert (Bd : forall v, In v [vi; ce; pv; w; hb; vb] -> v < K0).
  { intros v Hv. unfold K0. pose proof (list_max_le [vi; ce; pv; w; hb; vb] (list_max [vi; ce; pv; w; hb; vb])) as [X _]. specialize (X (le_n _)). rewrite Forall_forall in X. specialize (X v Hv). lia. }
  set (env := fun v => if v <? K0 then env0 v else ([], [])).
  assert (Ee : forall v, In v [vi; ce; pv; w; hb; vb] -> env v = env0 v) by (intros v Hv; unfold env; now rewrite (proj2 (Nat.ltb_lt v K0) (Bd v Hv))).
  assert (Ei : env vi = env0 vi) by (apply Ee; cbn; auto). assert (Ece : env ce = env0 ce) by (apply Ee; cbn; auto). assert (Ep : env pv = env0 pv) by (apply Ee; cbn; auto).
  assert (J1 : initialized env st' w) by (unfold initialized; rewrite Ee by (cbn; auto 10); exact I1). assert (J2 : initialized env st' hb) by (unfold initialized; rewrite Ee by (cbn; auto 10); exact I2). assert (J3 : initialized env st' vb) by (unfold initialized; rewrite Ee by (cbn; auto 10); exact I3).
  assert (Fi : NetLaws.factor fresh use env n b (EVar vi)) by (split; [exists (env vi); split; [reflexivity|now rewrite Ei]|exact Logic.I]).
  assert (Fc : NetLaws.factor fresh use env n b' (EVar ce)) by (split; [exists (env ce); split; [reflexivity|now rewrite Ece]|exact Logic.I]).
  assert (Nic : @EVar R vi <> EVar ce) by (intros Q; injection Q as Q; apply NoDup_cons_iff in Nd as [Nd _]; apply Nd; rewrite Q; now left).
  assert (Fr : forall v, In v [w; hb; vb] -> has_leaf v (@EVar R vi) = false /\ has_leaf v (@EVar R ce) = false).
  { intros v Hv. cbn [has_leaf]. split; apply Nat.eqb_neq; intros <-.
    - apply NoDup_cons_iff in Nd as [Q _]. apply Q. right. now right.
    - apply NoDup_cons_iff in Nd as [_ Nd]. apply NoDup_cons_iff in Nd as [Q _]. apply Q. now right. }
  destruct (C59_updates_lemma of_nat same fresh use env n h b b' scope st m st' lr H1 Hn Hp Hl E) as (w' & hb' & vb' & V1 & V3).
  unfold rbm_variables in V1. rewrite A1, A2, A3 in V1. injection V1 as <- <- <-.
  destruct (V3 J1 J2 J3 (EVar vi) (EVar ce) Fi Fc Nic Fr) as (cost & us & Q1 & Q2 & Q3 & Q4). clear V3.
  pose proof (init_matrix _ _ _ _ _ _ J1 D1 S1 Hp Hn) as Mw. pose proof (init_vector _ _ _ _ _ J2 D2 S2 Hp) as Mh. pose proof (init_vector _ _ _ _ _ J3 D3 S3 Hn) as Mv.
  assert (Cb : cost = GBin BSub (RbmTrainProofs.nM w hb vb (EVar vi)) (RbmTrainProofs.nM w hb vb (EVar ce))).
  { rewrite (RbmTrainCost.cost_build same H1 w hb vb m (EVar vi) (EVar ce) A1 A2 A3 Nic) in Q1. now injection Q1 as <-. }
  assert (Vc : exists tc, geval Rnum fresh use INR env cost = Ok tc).
  { rewrite Cb. eexists. eapply (cost_val fresh use w hb vb n h b b' (EVar vi) (EVar ce) (env vi) (env ce)); auto; [now rewrite Ei|now rewrite Ece]. }
  destruct Vc as [tc Vc].
  set (ch := GUn UNeg (@GVar R pv)). set (us' := us ++ [(pv, ch)]).
  assert (Vch : geval Rnum fresh use INR env ch = Ok (ushape (fst (env pv)), map Ropp (snd (env pv)))).
  { unfold ch. cbn [geval bind sem]. rewrite unary_ok; [reflexivity|]. rewrite Ep. split; [now apply (MatrixProofs.matrix_def _ _ _ Mp)|]. rewrite (MatrixProofs.matrix_n _ _ _ Mp). apply Mp. }
  assert (Nu : ~ In pv [w; hb; vb]) by (do 2 (apply NoDup_cons_iff in Nd as [_ Nd]); apply NoDup_cons_iff in Nd as [Q _]; exact Q).
  assert (Nw : NoDup [w; hb; vb]) by (do 3 (apply NoDup_cons_iff in Nd as [_ Nd]); exact Nd).
  assert (Nd' : NoDup (map fst us')).
  { unfold us'. rewrite map_app, Q3. cbn [map fst]. apply (Permutation_NoDup (Permutation_app_comm [pv] _)). cbn [app]. constructor; assumption. }
  assert (Gs : forall v u, In (v, u) us -> exists g, gunary Rnum (UMulL lr) g = Ok u).
  { clear - Q2. unfold rbm_updates in Q2. repeat (match type of Q2 with bind ?x _ = Ok _ => let Q := fresh "Q" in destruct x eqn:Q; try discriminate Q2; cbn [bind] in Q2 end). injection Q2 as <-.
    intros v u [X|[X|[X|[]]]]; injection X as _ <-; eauto. }
  destruct (realise fresh use ord top env K0 cost tc us' Ho Ht) as (K & loc & node & s & cn & C & HK & Inj & Nop & Le & Vl & Sc & Oc & Lk & Hu); auto.
  { intros v Hv. unfold env. now rewrite (proj2 (Nat.ltb_ge v K0) Hv). }
  { now rewrite Cb. }
  { intros v u Hin. apply in_app_iff in Hin as [Hin|[Hin|[]]].
    - split; [destruct (Gs v u Hin) as [g Eg]; exact (scaled_node lr g u Hl Hl1 Eg)|]. destruct (Q4 v u Hin) as (dd & new & G1 & _). eauto.
    - injection Hin as <- <-. split; [right; reflexivity|]. eauto. }
  assert (Iu : forall v u, In (v, u) us -> In (v, u) us') by (intros v u Hin; apply in_app_iff; now left).
  assert (Ic : In (pv, ch) us') by (apply in_app_iff; right; now left).
  destruct (Hu pv ch Ic) as (_ & Uc2 & Uc3). specialize (Uc2 _ Vch). specialize (Uc3 ltac:(discriminate)).
  destruct (CallReal.call_runs ord top Ho Ht s cn (map (fun p : nat * gexpr => sub_closure (loc (fst p)) (node (fst p)) (snd p)) us ++ [set_closure (loc pv) (node pv)]) C Oc Lk) as [s' Es'].
  { rewrite flat_map_app. cbn [flat_map target set_closure app]. apply (Permutation_NoDup (Permutation_app_comm [loc pv] _)). cbn [app]. constructor; [|apply targets_nodup; [exact Inj|now rewrite Q3]].
    intros X. apply targets_in in X as (v & X & Hv); [|exact Inj]. apply Inj in X. subst v. rewrite Q3 in Hv. contradiction. }
  { intros c Hc. apply in_app_iff in Hc as [Hc|[<-|[]]].
    - apply in_map_iff in Hc as ([v u] & <- & Hk). cbn [fst snd]. destruct (Q4 v u Hk) as (dd & new & G1 & G2 & _). destruct (Hu v u (Iu v u Hk)) as (_ & U2 & U3). specialize (U2 dd G1).
      assert (Hin : In v [w; hb; vb]) by (rewrite <- Q3; apply (in_map fst) in Hk; exact Hk).
      assert (Hv : v < K) by (assert (v < K0); [apply Bd; cbn in *; tauto|lia]). destruct (Vl v Hv) as [Lv Ev].
      assert (Iv : initialized env st' v) by (destruct Hin as [<- |[<- |[<- |[]]]]; assumption).
      assert (Lvv : length (snd (env v)) = n_elems (fst (env v))) by (destruct Iv as (vv & _ & X1 & X2); congruence).
      assert (Ld : length (snd dd) = length (snd (env v))) by (unfold TrainSpec.tensor_sub in G2; destruct (length (snd dd) =? length (snd (env v))) eqn:Q; [now apply Nat.eqb_eq in Q|discriminate]).
      destruct (Gs v u Hk) as [g Eg]. destruct (scaled_node lr g u Hl Hl1 Eg) as [[t ->]|Is].
      + cbn [geval] in G1. injection G1 as <-. cbn [sub_closure]. destruct (const_is Rnum t 0%R) eqn:Z; cbn [CallReal.fits]; [exact Logic.I|]. split; [exact Lv|].
        destruct (sub_runs (env v) t true Lvv Ld ltac:(discriminate)) as [nw En]. exists (env v), nw. auto.
      + assert (Wd : length (snd dd) = n_elems (fst dd)).
        { assert (X : u = GUn (UMulL lr) g \/ CallBuild.is_node u = false).
          { clear - Eg Hl Hl1. cbn [gunary] in Eg. change (n_zero Rnum) with 0%R in Eg. change (n_one Rnum) with 1%R in Eg. change (n_neg Rnum 1%R) with (-(1))%R in Eg.
            rewrite ?(NetMlpProofs.Reqb_no 0 lr), ?(NetMlpProofs.Reqb_no (- (1)) lr), ?(NetMlpProofs.Reqb_no 1 lr) in Eg by lra.
            destruct g; cbn [gfold] in Eg; try (injection Eg as <-; left; reflexivity). right. destruct (_ || _); [injection Eg as <-; reflexivity|]. destruct (const_is _ _ _); injection Eg as <-; reflexivity. }
          destruct X as [->|X]; [|congruence]. cbn [geval] in G1. destruct (geval Rnum fresh use INR env g) as [tg| | |]; try discriminate. cbn [bind] in G1. apply (CseFullProofs.sem_full Rnum fresh use INR _ _ _ G1). }
        destruct (sub_runs (env v) dd false Lvv Ld (fun _ => Wd)) as [nw En].
        destruct u; try discriminate; cbn [sub_closure CallReal.fits]; (split; [exact Lv|]; split; [apply U3; intros; discriminate|]; exists dd, (env v), nw; auto).
    - cbn [CallReal.fits set_closure]. destruct (Vl pv) as [Lv Ev]; [assert (pv < K0); [apply Bd; cbn; auto|lia]|]. split; [exact Lv|]. split; [exact Uc3|].
      assert (Wp : length (snd (env pv)) = n_elems (fst (env pv))) by (rewrite Ep, (MatrixProofs.matrix_n _ _ _ Mp); apply Mp).
      destruct (copy_runs (map Ropp (snd (env pv))) (n_elems (fst (env pv))) (snd (env pv))) as [dd Ed]; [rewrite map_length; lia|lia|].
      exists (ushape (fst (env pv)), map Ropp (snd (env pv))), (env pv), (fst (env pv), dd). split; [exact Uc2|]. split; [exact Ev|]. cbn [fst snd]. rewrite ushape_n, Nat.eqb_refl. cbn [assert_ bind]. rewrite Ed. reflexivity. }
  assert (Eq : (fun v => if v =? ce then env0 ce else TrainSpec.leaf_env loc s v) = env).
  { rewrite Le. apply functional_extensionality. intros v. destruct (Nat.eqb_spec v ce) as [->|]; [now rewrite Ece|reflexivity]. }
  exists loc, node, s, s', cn, cost, us, (node pv). cbv zeta. rewrite Eq. split; [exact (CallReal.c_hist ord top s C)|]. split; [exact Inj|]. split; [intros v _; apply Nop|].
  split. { destruct (Vl ce) as [Lc Ec]; [assert (ce < K0); [apply Bd; cbn; auto|lia]|]. rewrite <- Ece, <- Ec. now constructor. }
  split; [exact Ee|]. split; [exact Q1|]. split; [exact Q2|]. split; [exact Fi|]. split; [intros v Hv; apply (Fr v Hv)|]. split; [exact Sc|]. split; [apply Lk, Uc3|]. split; [|exact Es'].
  intros v u Hin Nc. destruct (Hu v u (Iu v u Hin)) as (U1 & _ & U3). split; [exact U1|]. apply Lk. now apply U3.
Qed.
