(** Pretraining: every machine is trained on the hidden distribution of those below. *)
From Coq Require Import String Reals Lra Lia.
From Verif Require Import Common CseModel CseSpec ShapeModel ShapeSpec ShapeProofs TransformModel TransformProofs MatmulSpec MatmulModel ElemSpec ElemModel ElemProofs NumSpec RealNum ElemLaws GradModel GradSpec GradProofs MatrixSpec MatrixProofs LeafModel LeafProofs MlpSpec MlpModel MlpProofs MlpLaws RbmSpec RbmModel RbmLaws GroupModel RbmTrainModel RbmTrainSpec RbmTrainLaws SampleModel SampleSpec RbmChainModel RbmChainProofs RbmChainLaws DbSpec DbModel DbNet.
From Verif Require NetProofs NetLaws TrainSpec DbStep.
Local Open Scope list_scope.

Lemma net_ext (ls : list (@layer R)) y : forall n h h', (forall x, x < n -> h x y = h' x y) -> forall x, x < out_size n ls -> net_value 0%R Rplus Rmult n ls h x y = net_value 0%R Rplus Rmult n ls h' x y.
Proof.
  induction ls as [|L ls IH]; intros n h h' H x Hx; cbn [net_value out_size] in *; [auto|]. apply IH; [|exact Hx]. intros x0 _. f_equal. unfold dense. f_equal. apply sumn_ext. intros q Hq. now rewrite H.
Qed.
Lemma up_leaves (m : rbm) w hb e e' v : r_w m = Some w -> r_hb m = Some hb -> rbm_prop_up Rnum m e = Ok e' -> has_leaf v e' = true -> has_leaf v e = true \/ v = w \/ v = hb.
Proof.
  unfold rbm_prop_up, mk_axb, mk_mat. intros -> -> H L. cbn [ptr_of bind] in H. cbn [cview_of] in H. cbn [bind] in H. rewrite sigmoid_node in H by exact I. injection H as <-.
  cbn [has_leaf] in L. apply orb_prop in L. destruct L as [L|L]; [apply orb_prop in L; destruct L as [L|L]|]; [now left|right; left; now apply Nat.eqb_eq in L|right; right; now apply Nat.eqb_eq in L].
Qed.
Lemma init_prefix {T} (env : nat -> tens T) (st ext : store) p : p < length st -> initialized env (st ++ ext) p -> initialized env st p.
Proof. intros H (v & D & S). exists v. split; [|exact S]. unfold deref in *. now rewrite nth_error_app1 in D. Qed.

Section Pre.
Context (of_nat : nat -> R) (draw : nat -> nat -> R -> R -> R) (same : @gexpr R -> @gexpr R -> bool) (fresh : nat -> R) (use : bool) (b c : nat) (lr : R) (scope : string).
Context (Hd : forall k, binomial (draw k)) (Hsame : forall x y, same x y = true -> x = y) (Hb : 0 < b) (Hc : 0 < c) (Hl : (0 < lr)%R).

(** what the training function of machine [r] does, for the leaves' values [env] *)
Definition trained (env : nat -> tens R) (r : rbm) (node : @expr R) (chain_end : nat) (us : list (nat * @gexpr R)) : Prop :=
  exists cost, rbm_cost Rnum same r node (EVar chain_end) = Ok cost /\ map (fun x => Some (fst x)) us = rbm_variables r /\
  forall v u, In (v, u) us -> exists d new, geval Rnum fresh use INR env u = Ok d /\ TrainSpec.tensor_sub (env v) d = Some new /\
    fst new = fst (env v) /\ length (snd new) = length (snd (env v)) /\
    forall k, k < length (snd (env v)) -> exists slope,
      derivable_pt_lim (fun x => elem (geval Rnum fresh use INR (set_elem env v k x) cost) 0) (nth k (snd (env v)) 0%R) slope /\
      nth k (snd new) 0%R = (nth k (snd (env v)) 0 - lr * slope)%R.

Lemma pre_ok hid : forall n level st rs m st1 ext env k input t,
  db_layers_from Rnum of_nat scope n hid level st = (rs, m, st1) -> 0 < n -> Forall (fun h => 0 < h) hid -> length (st1 ++ ext) <= k ->
  (forall v, In (Some v) (flat_map rbm_variables rs) -> initialized env (st1 ++ ext) v) ->
  eval Rnum fresh use env input = Ok t -> matrix n b t -> NetLaws.factor fresh use env n b input ->
  (forall v, has_leaf v input = true -> v < k /\ ~ In (Some v) (flat_map rbm_variables rs)) ->
  exists env' uss, pretrain_from Rnum fresh use INR draw same rs env k lr input c = Ok (env', uss) /\ (forall i, i < k -> env' i = env i) /\ length uss = length hid /\
  forall j us, nth_error uss j = Some us ->
    let L := firstn j (layers_of Rnum env (params (map lay rs)) hid (map (fun _ => logistic) hid)) in
    out_size n L = nth j (n :: hid) 0 /\
    exists r node tj envj ce, nth_error rs j = Some r /\ db_fold Rnum (firstn j rs) input = Ok node /\ (forall i, i < k -> envj i = env i) /\
      eval Rnum fresh use envj node = Ok tj /\ matrix (nth j (n :: hid) 0) b tj /\
      (forall x y, x < nth j (n :: hid) 0 -> y < b -> entry 0%R (nth j (n :: hid) 0) tj x y = net_value 0%R Rplus Rmult n L (entry 0%R n t) x y) /\
      (exists env0 k0 it dist, k <= k0 /\ (forall i, i < k -> env0 i = env i) /\ rbm_chain Rnum fresh use draw r env0 k0 node None c = Ok (envj, ce, it, dist)) /\
      trained envj r node ce us.
Proof.
  induction hid as [|h hid IH]; intros n level st rs m st1 ext env k input t; cbn [db_layers_from].
  - intros [= <- <- <-] Hn _ Hk Hi He Ht Hf Hv. exists env, []. split; [reflexivity|]. split; [auto|]. split; [reflexivity|]. intros [|j] us Q; discriminate Q.
  - destruct (rbm_new Rnum of_nat n h _ st) as [r st0] eqn:Er. destruct (db_layers_from Rnum of_nat scope h hid (S level) st0) as [[rs' m'] st2] eqn:E.
    intros [= <- <- <-] Hn Hs Hk Hi He Ht Hf Hv. inversion Hs as [|? ? Hh Hs']; subst.
    destruct (layers_struct of_nat scope hid _ _ _ _ _ _ E) as ((ext0 & X0) & _ & _ & _ & _ & vs & Y1 & _ & Y3 & Y4 & _).
    assert (L0 : length st0 <= k) by (rewrite X0 in Hk; rewrite !app_length in Hk; lia).
    destruct (C60_train_lemma of_nat draw same fresh use env n h b _ st r st0 k c lr Hd Hsame Hn Hh Hb Hc Hl Er L0) as (w & hb & vb & Em & K).
    destruct (rbm_new_vars _ _ _ _ _ _ _ _ Er) as (w' & hb' & vb' & v1 & v2 & v3 & A1 & A2 & A3 & D1 & _ & D2 & _ & D3 & _).
    assert (Em' : rbm_variables r = [Some w'; Some hb'; Some vb']) by (unfold rbm_variables; now rewrite A1, A2, A3). rewrite Em in Em'. injection Em' as <- <- <-.
    apply deref_lt in D1, D2, D3. cbn [flat_map] in Hi, Hv. rewrite Em in Hi, Hv. cbn [app In] in Hi, Hv.
    assert (In0 : forall v, v < length st0 -> initialized env (st2 ++ ext) v -> initialized env st0 v).
    { intros v Hv0 Q. rewrite X0, <- app_assoc in Q. now apply init_prefix in Q. }
    assert (I1 : initialized env st0 w) by (apply In0; auto). assert (I2 : initialized env st0 hb) by (apply In0; auto). assert (I3 : initialized env st0 vb) by (apply In0; auto).
    destruct (K I1 I2 I3 input None Hf) as (env1 & us & ce & it & dist & cost & T1 & T2 & T3 & T4 & T5 & T6); [|exact I|].
    { intros v Hq. destruct (has_leaf v input) eqn:Q; [|reflexivity]. destruct (Hv v Q) as [Q1 Q2]. exfalso. destruct Hq as [Hq|Hq]; [|lia]. apply Q2. destruct Hq as [<-|[<-|[<-|[]]]]; auto. }
    assert (Ext : eval Rnum fresh use env1 input = Ok t) by (rewrite <- He; apply eval_ext; intros v Q; apply T5; now apply Hv).
    assert (Iv : forall v, v < k -> initialized env (st2 ++ ext) v -> initialized env1 (st2 ++ ext) v) by (intros v Hvk Q; apply (init_same env); auto).
    assert (Iw : forall v, v < length st0 -> initialized env st0 v -> initialized env1 st0 v) by (intros v Hvk Q; apply (init_same env); auto; apply T5; lia).
    destruct (C44_rbm_value_lemma of_nat fresh use env1 n h b _ st r st0 Hn Hh Hb Er) as (w' & hb' & vb' & Em' & K'). rewrite Em in Em'. injection Em' as <- <- <-.
    destruct (K' (Iw _ D1 I1) (Iw _ D2 I2) (Iw _ D3 I3)) as [K1 _]. destruct (K1 input t Ext Ht) as (input' & t' & P1 & P2 & P3 & P4). clear K K' K1.
    destruct (IH h (S level) st0 rs' m' st2 ext env1 (k + 2 * c + 2) input' t' E Hh Hs') as (env' & uss & R1 & R2 & R3 & R4).
    { lia. }
    { intros v Q. apply Iv; [|apply Hi; auto]. destruct (Hi v) as (q & Q1 & _); [auto|]. apply deref_lt in Q1. lia. }
    { exact P2. } { exact P3. }
    { split; [eauto|]. unfold rbm_prop_up, mk_axb, mk_mat in P1. rewrite A1, A2 in P1. cbn [ptr_of bind] in P1. cbn [cview_of] in P1. cbn [bind] in P1. rewrite sigmoid_node in P1 by exact I. injection P1 as <-. exact I. }
    { intros v Q. rewrite Y1. destruct (up_leaves r w hb input input' v A1 A2 P1 Q) as [Q1|Q1].
      - destruct (Hv v Q1) as [Q2 Q3]. split; [lia|]. rewrite <- Y1. intros Q4. apply Q3. auto.
      - assert (v < length st0) by (destruct Q1; subst; assumption). split; [lia|]. intros Q2. apply in_map_iff in Q2. destruct Q2 as (v' & [= ->] & Q2). apply Y3 in Q2. lia. }
    exists env', (us :: uss). cbn [pretrain_from]. rewrite T3. cbn [bind fst snd]. rewrite P1. cbn [bind]. rewrite R1. cbn [bind fst snd]. split; [reflexivity|].
    split; [intros i Hik; rewrite R2 by lia; auto|]. split; [cbn [length]; now rewrite R3|].
    intros [|j] us' Q.
    + injection Q as <-. cbn [firstn out_size nth net_value]. split; [reflexivity|]. exists r, input, t, env1, ce. split; [reflexivity|]. split; [reflexivity|]. split; [exact T5|]. split; [exact Ext|]. split; [exact Ht|]. split; [reflexivity|].
      split; [exists env, k, it, dist; auto|]. exists cost. split; [exact T2|]. split; [rewrite <- map_map, T4, Em; reflexivity|].
      intros v u Hin. assert (Ev : env1 v = env v).
      { assert (In v [w; hb; vb]) as Q by (rewrite <- T4; now apply (in_map fst) in Hin). apply T5. destruct Q as [<-|[<-|[<-|[]]]]; lia. }
      rewrite Ev. now apply T6.
    + cbn [nth_error] in Q. destruct (R4 j us' Q) as (O & r' & node & tj & envj & ce' & S1 & S2 & S3 & S4 & S5 & S6 & (e0 & k0 & it' & di' & S7 & S8 & S9) & S10).
      assert (EL : layers_of Rnum env1 (params (map lay rs')) hid (map (fun _ => logistic) hid) = layers_of Rnum env (params (map lay rs')) hid (map (fun _ => logistic) hid)).
      { apply DbStep.layers_env. intros p Hp. apply T5. assert (Hq : In p (vs ++ [S p; S p])).
        { apply (Permutation.Permutation_in p (Permutation.Permutation_sym (Y4 (S p) (S p)))). apply in_or_app. now left. }
        apply in_app_iff in Hq. destruct Hq as [Hq|[Hq|[Hq|[]]]]; [|lia|lia]. apply Y3 in Hq. rewrite app_length in Hk. lia. }
      rewrite EL in O, S6. assert (Ew : fc_variables (fst (lay r)) = [w; hb]) by (unfold lay; rewrite A1, A2; reflexivity).
      cbn [map flat_map]. rewrite Ew. cbn [app layers_of firstn out_size size nth]. split; [exact O|].
      exists r', node, tj, envj, ce'. split; [exact S1|]. split; [cbn [db_fold]; rewrite P1; exact S2|]. split; [intros i Hik; rewrite S3 by lia; auto|]. split; [exact S4|]. split; [exact S5|]. split.
      * intros x y Hx Hy. rewrite S6 by auto. cbn [net_value size weights biases activation]. apply net_ext; [|rewrite O; exact Hx]. intros x0 Hx0. rewrite P4 by auto. unfold logistic, dense. rewrite (T5 w), (T5 hb) by lia. reflexivity.
      * split; [|exact S10]. exists e0, k0, it', di'. split; [lia|]. split; [intros i Hik; rewrite S8 by lia; auto|exact S9].
Qed.
End Pre.
