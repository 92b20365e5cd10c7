(** C54: generators. *)
From Verif Require Import Common ShapeModel ShapeSpec ShapeProofs TensorModel TensorSpec TensorProofs ElemSpec GenModel GenSpec GenProofs.

(** Every history of calls on generators does exactly what the specification says: it is
    undefined exactly when the specification is, and otherwise all generators show the
    status, shape and data of the specification and the same notifications were sent. *)
Lemma C54_behaviour_lemma :
  forall (T : Type) (zero junk : T) (draw : nat -> nat -> nat -> T) (es : list gop),
    match arun draw ainit es with
    | Some A => exists W, grun zero junk draw ginit es = Ok W /\ shows W A
    | None => grun zero junk draw ginit es = UB
    end.
Proof.
  intros T zero junk draw es. pose proof (sim_run zero junk draw es ginit ainit Rel_init) as S. destruct (arun draw ainit es) as [A|]; auto.
  destruct S as [W [E R]]. exists W. split; auto. now apply Rel_shows.
Qed.

Lemma reach_rel {T} (zero junk : T) draw es W : grun zero junk draw ginit es = Ok W -> exists A, arun draw ainit es = Some A /\ Rel W A.
Proof.
  intros E. pose proof (sim_run zero junk draw es ginit ainit Rel_init) as S. destruct (arun draw ainit es) as [A|]; [|congruence].
  destruct S as [W' [E' R]]. exists A. split; auto. congruence.
Qed.

(** In every reachable state each living tensor and each living initializer belongs to
    exactly one living generator; when all generators are gone nothing is left. *)
Lemma C54_ownership_lemma :
  forall (T : Type) (zero junk : T) (draw : nat -> nat -> nat -> T) (es : list gop) (W : gworld),
    grun zero junk draw ginit es = Ok W ->
    (forall k t, alive (gw_w W) k t -> exists i g, gget W i = Ok g /\ g_data g = Some k) /\
    (forall k id, nth_error (gw_inits W) k = Some (Some id) -> exists i g, gget W i = Ok g /\ g_init g = Some k) /\
    (forall i i' g g' k, gget W i = Ok g -> gget W i' = Ok g' -> g_data g = Some k -> g_data g' = Some k -> i = i') /\
    (forall i i' g g' k, gget W i = Ok g -> gget W i' = Ok g' -> g_init g = Some k -> g_init g' = Some k -> i = i') /\
    ((forall i g, gget W i <> Ok g) ->
       all_destroyed (gw_w W) /\ (forall p b, ~ live (gw_w W) p b) /\ (forall k id, nth_error (gw_inits W) k <> Some (Some id))).
Proof.
  intros T zero junk draw es W E. destruct (reach_rel _ _ _ _ _ E) as [A [_ (HI & _ & _ & _ & X1 & X2)]].
  assert (G : forall i g, gget W i = Ok g <-> at_ (gw_gens W) i g).
  { intros i g. unfold gget, at_. destruct (nth_error (gw_gens W) i) as [[x|]|]; split; congruence. }
  assert (O1 : forall k t, alive (gw_w W) k t -> exists i g, gget W i = Ok g /\ g_data g = Some k).
  { intros k t H. destruct (proj1 (proj2 X1 k)) as (i & g & Q & F); [eexists; eauto|]. exists i, g. rewrite G. auto. }
  assert (O2 : forall k id, nth_error (gw_inits W) k = Some (Some id) -> exists i g, gget W i = Ok g /\ g_init g = Some k).
  { intros k id H. destruct (proj1 (proj2 X2 k)) as (i & g & Q & F); [eexists; eauto|]. exists i, g. rewrite G. auto. }
  split; [exact O1|]. split; [exact O2|]. split; [|split].
  - intros i i' g g' k H H'. apply G in H, H'. apply (proj1 X1 i i' g g' k H H').
  - intros i i' g g' k H H'. apply G in H, H'. apply (proj1 X2 i i' g g' k H H').
  - intros N. split; [|split].
    + intros i t H. destruct (O1 i t H) as (j & g & Q & _). exact (N j g Q).
    + intros p b H. destruct HI as (_ & _ & I3). destruct (I3 p b H) as (i & t & Q & _). destruct (O1 i t Q) as (j & g & Z & _). exact (N j g Z).
    + intros k id H. destruct (O2 k id H) as (j & g & Q & _). exact (N j g Q).
Qed.

(** An update fills a generator when it holds nothing yet or its dependency has a fully
    defined shape of another layout: the generator then has the dependency's shape, the
    elements are those of one run of its initializer, and its observers are notified. *)
Lemma C54_update_fills_lemma :
  forall (T : Type) (zero junk : T) (draw : nat -> nat -> nat -> T) (es : list gop) (W : gworld) (i j : nat) (g : gen) (s s0 : shape) (b : bool),
    grun zero junk draw ginit es = Ok W -> gget W i = Ok g -> g_dep g = Some j -> nth_error (gw_deps W) j = Some (s, true) -> defined s ->
    good_status W i = Ok b -> gshape W i = Ok s0 -> (b = false \/ ~ same_layout s0 s) ->
    exists W' id, gstep zero junk draw W (EUpdate i) = Ok W' /\
      good_status W' i = Ok true /\ gshape W' i = Ok s /\
      geval W' i = Ok (Some (Ok (map (draw id (gw_calls W)) (seq 0 (n_elems s))))) /\ gw_log W' = gw_log W ++ [i].
Proof.
  intros T zero junk draw es W i j g s s0 b E Gg D Hj Ds Hb Hs Hc. destruct (reach_rel _ _ _ _ _ E) as [A [_ R]].
  pose proof (Rel_shows W A R) as (Sl & Sd & Sn & Sh). specialize (Sh i). pose proof (rel_get W A i R) as Q.
  destruct (aget A i) as [[dep id v]|] eqn:Ea; [|congruence]. destruct Q as (g1 & At & G1 & An & O). rewrite Gg in G1. injection G1 as <-.
  destruct O as (O1 & _). cbn in O1. rewrite D in O1. destruct Sh as (S1 & S2 & S3). cbn [a_val] in *.
  assert (Rf : refills v (s, true) = true).
  { unfold refills. cbn [fst snd]. rewrite (proj2 (is_fully_defined_iff s) Ds). cbn [andb]. destruct v as [|s1 d1|]; auto. rewrite Hs in S2. injection S2 as ->. rewrite Hb in S1. injection S1 as ->.
    cbn in Hc. destruct Hc as [Hc|Hc]; [discriminate|]. unfold layout_eqb. unfold same_layout in Hc.
    destruct (list_eq_dec Nat.eq_dec s1 s); [tauto|]. destruct (Nat.eqb_spec (length s1) (length s)); cbn; [reflexivity|].
    destruct (list_eq_dec Nat.eq_dec (unpad s1) (unpad s)); [tauto|reflexivity]. }
  pose proof (sim_step zero junk draw W A (EUpdate i) R) as S. cbn [astep] in S. unfold aupdate in S. rewrite Ea in S. subst dep.
  rewrite Sd in Hj. rewrite Hj, Rf in S. cbn [fst] in S. destruct S as [W' [E' R']]. exists W', id. split; auto.
  pose proof (Rel_shows _ _ R') as (Sl' & _ & _ & Sh'). specialize (Sh' i). cbn [a_log anotify acount aset] in Sl'.
  unfold aget in Sh'. cbn [anotify acount aset a_gens] in Sh'. rewrite nth_error_set_nth_eq in Sh' by (now apply nth_error_lt in An).
  destruct Sh' as (T1 & T2 & T3). cbn [a_good a_shape a_eval a_val] in *. split; auto. split; auto. split; [|congruence].
  rewrite T3. unfold fresh_data. destruct R as (_ & (_ & Ec & _) & _). now rewrite Ec.
Qed.

(** Which calls can change what generator [i] holds. *)
Definition affects {T} (W : @gworld T) (e : gop) (i : nat) : Prop :=
  match e with
  | EMove k | EDelete k | EAssign k _ => k = i
  | EMoveAssign k l => k = i \/ l = i
  | EUpdate k => k = i /\ exists g j s, gget W i = Ok g /\ g_dep g = Some j /\ nth_error (gw_deps W) j = Some (s, true) /\ defined s /\
      (good_status W i = Ok false \/ exists s0, gshape W i = Ok s0 /\ ~ same_layout s0 s)
  | _ => False
  end.

Lemma aget_set_neq {T} (A : @astate T) i k x : i <> k -> aget (aset A k x) i = aget A i.
Proof. intros N. unfold aget, aset. cbn [a_gens]. rewrite nth_error_set_nth_neq; auto. Qed.
Lemma aget_new {T} (A : @astate T) i a x : aget A i = Some a -> aget (anew A x) i = Some a.
Proof. unfold aget, anew. cbn [a_gens]. destruct (nth_error (a_gens A) i) eqn:E; [|discriminate]. rewrite nth_error_app1; [now rewrite E|]. now apply nth_error_lt in E. Qed.

(** Nothing else does: whatever happens to its dependency or to other generators, a
    generator keeps its status, shape and elements; only updates that find the dependency
    in a fully defined shape of another layout change them. *)
Lemma C54_stable_lemma :
  forall (T : Type) (zero junk : T) (draw : nat -> nat -> nat -> T) (es : list gop) (W W' : gworld) (e : gop) (i : nat) (g : gen),
    grun zero junk draw ginit es = Ok W -> gstep zero junk draw W e = Ok W' -> gget W i = Ok g -> ~ affects W e i ->
    good_status W' i = good_status W i /\ gshape W' i = gshape W i /\ geval W' i = geval W i.
Proof.
  intros T zero junk draw es W W' e i g E Es Gg Na. destruct (reach_rel _ _ _ _ _ E) as [A [_ R]].
  pose proof (Rel_shows W A R) as (Sl & Sd & Sn & Sh). specialize (Sh i). pose proof (rel_get W A i R) as Q.
  destruct (aget A i) as [a|] eqn:Ea; [|congruence]. destruct Q as (g1 & At & G1 & An & O). rewrite Gg in G1. injection G1 as <-.
  pose proof (sim_step zero junk draw W A e R) as S.
  assert (K : forall A', astep draw A e = Some A' -> aget A' i = Some a).
  2:{ destruct (astep draw A e) as [A'|]; [|congruence]. destruct S as [W2 [E2 R2]]. rewrite Es in E2. injection E2 as <-.
      pose proof (Rel_shows _ _ R2) as (_ & _ & _ & Sh'). specialize (Sh' i). rewrite (K A' eq_refl) in Sh'.
      destruct Sh as (-> & -> & ->), Sh' as (-> & -> & ->). auto. }
  clear S Es. assert (Up : forall A0 k A', aget A0 i = Some a -> k <> i -> aupdate draw A0 k = Some A' -> aget A' i = Some a).
  { intros A0 k A' H N Hu. unfold aupdate in Hu. destruct (aget A0 k) as [[[j|] id v]|]; try discriminate. destruct (nth_error (a_deps A0) j) as [d|]; [|discriminate].
    destruct (refills v d); injection Hu as <-; auto. unfold aget, anotify, acount, aset. cbn [a_gens]. rewrite nth_error_set_nth_neq; auto. }
  destruct e as [s good|j s good|j id|k|k|k|k l|k l|k]; cbn [astep affects] in *; intros A' H.
  - injection H as <-. exact Ea.
  - destruct (j <? length (a_deps A)); [|discriminate]. injection H as <-. exact Ea.
  - destruct (j <? length (a_deps A)); [|discriminate]. apply (Up _ _ _ (aget_new _ _ _ _ Ea)) in H; auto.
    apply nth_error_lt in An. lia.
  - destruct (Nat.eq_dec k i) as [->|N]; [|apply (Up _ _ _ Ea N H)].
    unfold aupdate in H. rewrite Ea in H. destruct a as [[j|] id v]; [|discriminate]. destruct (nth_error (a_deps A) j) as [[s gd]|] eqn:Ej; [|discriminate].
    destruct (refills v (s, gd)) eqn:Rf; [|injection H as <-; exact Ea]. exfalso. apply Na. split; auto.
    unfold refills in Rf. cbn [fst snd] in Rf. destruct gd; [|discriminate]. destruct (is_fully_defined s) eqn:F; [|discriminate]. cbn [andb] in Rf.
    destruct O as (O1 & _). cbn in O1. exists g, j, s. split; auto. split; auto. rewrite Sd. split; auto. split; [now apply is_fully_defined_iff|].
    destruct Sh as (S1 & S2 & S3). cbn [a_val] in *. destruct v as [|s1 d1|]; [auto| |].
    + right. exists s1. split; auto. intros L. unfold layout_eqb in Rf. unfold same_layout in L.
      destruct (list_eq_dec Nat.eq_dec s1 s); [discriminate|]. destruct L as [L|[L1 L2]]; [contradiction|].
      destruct (Nat.eqb_spec (length s1) (length s)); [contradiction|]. destruct (list_eq_dec Nat.eq_dec (unpad s1) (unpad s)); [discriminate|contradiction].
    + pose proof (rel_get W A i R) as Q. rewrite Ea in Q. destruct Q as (g2 & _ & _ & _ & (_ & _ & _ & _ & Q)). specialize (Q eq_refl). discriminate.
  - destruct (aget A k); [|discriminate]. injection H as <-. now apply aget_new.
  - destruct (aget A k); [|discriminate]. injection H as <-. apply aget_new. rewrite aget_set_neq by congruence. exact Ea.
  - destruct (aget A k); [|discriminate]. destruct (aget A l); [|discriminate]. injection H as <-. destruct (k =? l); auto.
    unfold anotify. unfold aget in *. cbn [a_gens aset]. rewrite nth_error_set_nth_neq; auto.
  - destruct (aget A k); [|discriminate]. destruct (aget A l); [|discriminate]. injection H as <-. destruct (k =? l); auto.
    unfold anotify. unfold aget in *. cbn [a_gens aset]. rewrite !nth_error_set_nth_neq; auto.
  - destruct (aget A k); [|discriminate]. injection H as <-. rewrite aget_set_neq by congruence. exact Ea.
Qed.

(** The generator's shape is not always the shape of its dependency, not even right after a
    successful update: another rank with the same layout is ignored, and so is a dependency
    that went bad. *)
Lemma C54_follows_shape_refuted_lemma :
  let draw := fun id n k => id + 10 * n + k in
  exists W, grun 0 0 draw ginit [EDep [3] true; EGet 0 5; ESet 0 [3; 1] true; EUpdate 0; EDep [2] true; EGet 1 6; ESet 1 [4] false; EUpdate 1] = Ok W /\
    gw_deps W = [([3; 1], true); ([4], false)] /\ gshape W 0 = Ok [3] /\ gshape W 1 = Ok [2] /\ good_status W 1 = Ok true.
Proof. cbv zeta. eexists. split; [vm_compute; reflexivity|]. split; [vm_compute; reflexivity|]. split; [vm_compute; reflexivity|]. split; vm_compute; reflexivity. Qed.

(** A generator that was moved from claims good status but has no data, and updating it is
    undefined. *)
Lemma C54_moved_from_refuted_lemma :
  forall (T : Type) (zero junk : T) (draw : nat -> nat -> nat -> T) (es : list gop) (W : gworld) (i : nat) (d : list T),
    grun zero junk draw ginit es = Ok W -> geval W i = Ok (Some (Ok d)) ->
    exists W', gstep zero junk draw W (EMove i) = Ok W' /\ good_status W' i = Ok true /\ gshape W' i = Ok [] /\ geval W' i = Ok (Some Abort) /\
      geval W' (length (gw_gens W)) = Ok (Some (Ok d)) /\ gstep zero junk draw W' (EUpdate i) = UB.
Proof.
  intros T zero junk draw es W i d E He. destruct (reach_rel _ _ _ _ _ E) as [A [_ R]].
  pose proof (Rel_shows W A R) as (Sl & Sd & Sn & Sh). specialize (Sh i). pose proof (rel_get W A i R) as Q.
  destruct (aget A i) as [a|] eqn:Ea; [|unfold geval in He; rewrite Sh in He; discriminate]. destruct Q as (g1 & At & G1 & An & O).
  destruct Sh as (S1 & S2 & S3). rewrite He in S3. destruct a as [dep id v]. destruct v as [|s d1|]; try discriminate S3. cbn in S3. injection S3 as <-.
  pose proof (sim_step zero junk draw W A (EMove i) R) as S. cbn [astep] in S. rewrite Ea in S. destruct S as [W' [E' R']]. exists W'. split; auto.
  pose proof (Rel_shows _ _ R') as (_ & _ & _ & Sh'). apply nth_error_lt in An.
  assert (B : aget (anew (aset A i (Some (remains (mkA dep id (Val s d))))) (mkA dep id (Val s d))) i = Some (mkA None id Emptied)).
  { apply aget_new. unfold aget, aset. cbn [a_gens]. now rewrite nth_error_set_nth_eq. }
  pose proof (Sh' i) as Si. rewrite B in Si. destruct Si as (T1 & T2 & T3). cbn in T1, T2, T3. split; auto. split; auto. split; auto. split.
  - specialize (Sh' (length (gw_gens W))). unfold aget, anew, aset in Sh'. cbn [a_gens] in Sh'.
    rewrite nth_error_app2 in Sh'; rewrite length_set_nth in *; [|lia]. rewrite Sn, Nat.sub_diag in Sh'. cbn in Sh'. rewrite Sn. apply Sh'.
  - pose proof (sim_step zero junk draw _ _ (EUpdate i) R') as S. cbn [astep] in S. unfold aupdate in S. rewrite B in S. exact S.
Qed.

(** A history with two fills, a clone that keeps the old data, a move and deletions. *)
Lemma C54_nonvacuous_lemma :
  let draw := fun id n k => id + 10 * n + k in
  let es := [EDep [2; 2] true; EGet 0 5; EClone 0; ESet 0 [3] true; EUpdate 0; EMove 1; EAssign 0 2; EDelete 1] in
  exists W, grun 0 0 draw ginit es = Ok W /\ geval W 0 = Ok (Some (Ok [5; 6; 7; 8])) /\ geval W 2 = Ok (Some (Ok [5; 6; 7; 8])) /\
    gshape W 0 = Ok [2; 2] /\ gget W 1 = UB /\ gw_log W = [0; 0; 0] /\
    affects W (EUpdate 2) 2 /\ ~ affects W (EUpdate 0) 2 /\ exists W', gstep 0 0 draw W (EUpdate 2) = Ok W' /\ geval W' 2 = Ok (Some (Ok [25; 26; 27])).
Proof.
  cbv zeta. eexists. split; [vm_compute; reflexivity|]. do 5 (split; [vm_compute; reflexivity|]). split.
  - split; [reflexivity|]. eexists _, _, _. split; [vm_compute; reflexivity|]. split; [vm_compute; reflexivity|]. split; [vm_compute; reflexivity|].
    split; [apply is_fully_defined_iff; reflexivity|]. right. exists [2; 2]. split; [vm_compute; reflexivity|]. intros [H|[_ H]]; vm_compute in H; discriminate.
  - split; [intros [H _]; discriminate|]. eexists. split; vm_compute; reflexivity.
Qed.
