From Verif Require Import Common ShapeModel ShapeSpec ShapeProofs FitModel TensorModel TensorSpec TensorProofs TensorDataLaws LeafModel LeafSpec LeafProofs.

Section Steps.
Context {T : Type} (zero junk : T) (add sub : T -> T -> T) (eqb : T -> T -> bool).
Implicit Types W : @lworld T.

Definition tag (k : @kind T) : nat := match k with KTensor => 0 | KConst => 1 | KPlace => 2 | KVar _ => 3 end.
Definition tags W : list nat := map (fun f => tag (l_kind f)) (l_fs W).

Definition UInv W : Prop := forall u a i, (exists d, nth_error (l_us W) u = Some (UData a i d)) \/ (exists j, nth_error (l_us W) u = Some (UNode a i j)) ->
  nth_error (tags W) i = Some 3.

Definition Good W := LInv W /\ UInv W.

Lemma set_nth_same {A} (l : list A) i x : nth_error l i = Some x -> set_nth i x l = l.
Proof. revert i. induction l as [|z l IH]; intros [|i]; simpl; try discriminate; [congruence|intros; f_equal; auto]. Qed.

Lemma map_set_nth {A B} (g : A -> B) l i x : map g (set_nth i x l) = set_nth i (g x) (map g l).
Proof. revert i. induction l as [|z l IH]; intros [|i]; simpl; auto. now f_equal. Qed.

Lemma tags_lset W h i t k b f : nth_error (l_fs W) i = Some f -> tag k = tag (l_kind f) -> tags (lset W h i t k b) = tags W.
Proof.
  intros Hf E. unfold tags, lset; cbn [l_fs]. rewrite map_set_nth. cbn [l_kind]. rewrite E. apply set_nth_same.
  rewrite nth_error_map, Hf. reflexivity.
Qed.

Lemma UInv_same W W' : tags W' = tags W -> l_us W' = l_us W -> UInv W -> UInv W'.
Proof. intros E1 E2 H u a i Hu. rewrite E1. rewrite E2 in Hu. eapply H; eauto. Qed.

Lemma UInv_app W W' x : tags W' = tags W ++ [x] -> l_us W' = l_us W -> UInv W -> UInv W'.
Proof.
  intros E1 E2 H u a i Hu. rewrite E1. rewrite E2 in Hu. specialize (H u a i Hu).
  rewrite nth_error_app1; auto. now apply nth_error_lt in H.
Qed.

(** what every step guarantees *)
Definition step_post W (o : @lop T) W' : Prop :=
  Good W' /\ (exists more, tags W' = tags W ++ more) /\
  (forall k, k < length (l_fs W) -> ~ writes W o k -> observe W' k = observe W k) /\
  (exists more, l_us W' = l_us W ++ more) /\
  (exists more, l_log W' = l_log W ++ more).

Lemma post_new W o h1 t1 k b : Good W -> local (lheap W) blank h1 t1 -> (raw t1 = None -> alloc_shape t1 = []) ->
  step_post W o (lnew W h1 t1 k b).
Proof.
  intros [HI HU] L He. assert (Et : tags (lnew W h1 t1 k b) = tags W ++ [tag k]) by (unfold tags, lnew; cbn [l_fs]; now rewrite map_app).
  split; [split; [now apply LInv_lnew|eapply UInv_app; eauto]|]. split; [eauto|]. split.
  - intros j Hj _. now apply observe_frame_lnew.
  - split; exists []; now rewrite app_nil_r.
Qed.

Lemma post_set W o h1 i t t1 k b f : Good W -> alive (l_w W) i t -> local (lheap W) t h1 t1 -> (raw t1 = None -> alloc_shape t1 = []) ->
  nth_error (l_fs W) i = Some f -> tag k = tag (l_kind f) -> (forall j, j = i -> writes W o j) ->
  step_post W o (lset W h1 i t1 k b).
Proof.
  intros [HI HU] Ha L He Hf Ek Hw. pose proof (tags_lset W h1 i t1 k b f Hf Ek) as Et.
  split; [split; [eapply LInv_lset; eauto|eapply UInv_same; eauto]|]. split; [exists []; now rewrite app_nil_r|]. split.
  - intros j Hj Hnw. eapply observe_frame_lset; eauto.
  - split; exists []; now rewrite app_nil_r.
Qed.

Lemma post_notify W o W' i : step_post W o W' -> step_post W o (lnotify W' i).
Proof.
  intros [H1 [H2 [H3 [H4 [m Hm]]]]]. split; [exact H1|]. split; [exact H2|]. split; [exact H3|]. split; [exact H4|].
  exists (m ++ [i]). cbn [lnotify l_log]. rewrite Hm. now rewrite app_assoc.
Qed.

Lemma post_put W o i t p b b' : Good W -> alive (l_w W) i t -> holdsb (lheap W) t p b -> length b' = length b ->
  (forall j, j = i -> writes W o j) -> step_post W o (lput W (hput (lheap W) p b')).
Proof.
  intros [HI HU] Ha Hb E Hw. split; [split; [eapply LInv_lput; eauto|eapply UInv_same; eauto]|].
  split; [exists []; now rewrite app_nil_r|]. split.
  - intros j Hj Hnw. eapply observe_frame_lput; eauto.
  - split; exists []; now rewrite app_nil_r.
Qed.

Lemma wf_blank (h : heap T) : wf h blank.
Proof. intros p; discriminate. Qed.

Lemma t_new_any (h : heap T) s : exists h1 t1, t_new junk h s = (h1, t1) /\ local h blank h1 t1 /\ (raw t1 = None -> alloc_shape t1 = []) /\ get_shape t1 = s.
Proof.
  destruct (t_new junk h s) as [h1 t1] eqn:E. exists h1, t1. split; auto.
  destruct (t_new_ok junk h s) as [L _]. rewrite E in L. split; auto.
  unfold t_new in E. destruct (is_fully_defined s) eqn:F; cbn [halloc] in E; injection E as <- <-; split; auto.
  - discriminate.
  - unfold get_shape, is_alloc; cbn [alloc_shape raw]. now rewrite F.
Qed.

Lemma observe_other W W' k : l_w W' = l_w W -> l_fs W' = l_fs W -> observe W' k = observe W k.
Proof. intros E1 E2. unfold observe, leaf_eval, lf, lheap. now rewrite E1, E2. Qed.

(** move assignment of a tensor into a placeholder *)
Lemma feed_tensor_step W i j ti tj bi :
  Good W -> alive (l_w W) i ti -> alive (l_w W) j tj -> i <> j ->
  nth_error (l_fs W) i = Some (mkLeaf KPlace bi) -> (exists b, nth_error (l_fs W) j = Some (mkLeaf KTensor b)) ->
  exists W', lstep zero junk add sub eqb W (LFeedTensor i j) = Ok W' /\ step_post W (LFeedTensor i j) W' /\
    l_log W' = l_log W ++ [i] /\
    alive (l_w W') i (mkT (raw tj) (alloc_shape tj) (allowed_shape tj)) /\ alive (l_w W') j (mkT None [] []) /\
    nth_error (l_fs W') i = Some (mkLeaf KPlace true) /\ nth_error (l_fs W') j = Some (mkLeaf KTensor true) /\
    (forall p b, raw tj = Some p -> nth_error (lheap W) p = Some (Some b) -> nth_error (lheap W') p = Some (Some b)).
Proof.
  intros [HI HU] Hi Hj Hne Fi [bj Fj]. cbn [lstep]. unfold lf.
  rewrite (rd_ok _ _ _ Fi), (rd_ok _ _ _ Fj), (lookup_ok _ _ _ Hi), (lookup_ok _ _ _ Hj). cbn [bind l_kind].
  unfold t_move_helper. destruct (local_free (lheap W) ti [] [] (LInv_wf _ _ _ HI Hi)) as [h1 [E L]].
  rewrite E. cbn [bind]. eexists. split; [reflexivity|].
  set (ti' := mkT (raw tj) (alloc_shape tj) (allowed_shape tj)). set (tj' := mkT None [] []).
  pose proof (LInv_lset W h1 i ti (mkT None [] []) KPlace true HI Hi L (fun _ => eq_refl)) as HI1.
  set (W1 := lset W h1 i (mkT None [] []) KPlace true) in *.
  assert (Li : i < length (w_ts (l_w W))) by (unfold alive in Hi; now apply nth_error_lt in Hi).
  assert (Lj : j < length (w_ts (l_w W))) by (unfold alive in Hj; now apply nth_error_lt in Hj).
  assert (Hi1 : alive (l_w W1) i (mkT None [] [])) by (eapply alive_lset; eauto).
  assert (Hj1 : alive (l_w W1) j tj) by (unfold W1, lset; cbn [l_w]; apply frame_put; auto).
  set (W' := lset (lset W h1 i ti' KPlace true) h1 j tj' KTensor true).
  assert (Ew : l_w W' = mkW (w_heap (l_w W1)) (set_nth j (Some tj') (set_nth i (Some ti') (w_ts (l_w W1))))).
  { unfold W', W1, lset, put; cbn [l_w w_heap w_ts]. f_equal. f_equal.
    generalize (w_ts (l_w W)). clear. revert i. intros i l. revert i. induction l as [|z l IH]; intros [|i]; simpl; auto. now f_equal. }
  assert (Inv' : Inv (l_w W')). { rewrite Ew. apply (Inv_transfer (l_w W1) i j (mkT None [] []) tj [] []); auto. apply HI1. }
  assert (Ai : alive (l_w W') i ti').
  { unfold alive. rewrite Ew. cbn [w_ts]. rewrite nth_error_set_nth_neq by auto. apply nth_error_set_nth_eq. unfold W1, lset, put; cbn [l_w w_ts]. now rewrite length_set_nth. }
  assert (Aj : alive (l_w W') j tj').
  { unfold alive. rewrite Ew. cbn [w_ts]. apply nth_error_set_nth_eq. unfold W1, lset, put; cbn [l_w w_ts]. now rewrite !length_set_nth. }
  assert (Ak : forall k, k <> i -> k <> j -> nth_error (w_ts (l_w W')) k = nth_error (w_ts (l_w W)) k).
  { intros k Hki Hkj. unfold W', lset, put; cbn [l_w w_ts]. now rewrite !nth_error_set_nth_neq by auto. }
  pose proof HI as [_ [HL [HA HE]]].
  assert (HI' : LInv W').
  { split; auto. split; [unfold W', lset, put; cbn [l_w l_fs w_ts]; rewrite !length_set_nth; auto|]. split.
    - intros k Hk. destruct (Nat.eq_dec k i) as [->|]; [eauto|]. destruct (Nat.eq_dec k j) as [->|]; [eauto|].
      unfold alive. rewrite Ak by auto. apply HA. unfold W', lset in Hk; cbn [l_fs] in Hk. now rewrite !length_set_nth in Hk.
    - intros k tk Hk. destruct (Nat.eq_dec k i) as [->|].
      + unfold alive in *. rewrite Ai in Hk. injection Hk as <-. cbn. apply (HE j). exact Hj.
      + destruct (Nat.eq_dec k j) as [->|].
        * unfold alive in *. rewrite Aj in Hk. injection Hk as <-. auto.
        * unfold alive in Hk. rewrite Ak in Hk by auto. now apply (HE k). }
  assert (Et : tags W' = tags W).
  { unfold W'. rewrite (tags_lset _ _ _ _ _ _ (mkLeaf KTensor bj)), (tags_lset _ _ _ _ _ _ (mkLeaf KPlace bi)); auto.
    cbn [lset l_fs]. rewrite nth_error_set_nth_neq by auto. auto. }
  change (put (put (l_w W) h1 i (Some ti')) h1 j (Some tj')) with (l_w W').
  split; [|split; [reflexivity|]].
  - apply post_notify. split; [split; auto; eapply UInv_same; eauto|]. split; [exists []; rewrite app_nil_r; exact Et|]. split.
    + cbn [writes]. intros k Hk Hnw.
      assert (Hk1 : k <> i) by tauto. assert (Hk2 : k <> j) by tauto.
      unfold observe, leaf_eval, lf.
      assert (Ef : rd (l_fs W') k = rd (l_fs W) k). { unfold rd, W', lset; cbn [l_fs]. now rewrite !nth_error_set_nth_neq by auto. }
      assert (Elk : lookup (l_w W') k = lookup (l_w W) k). { unfold lookup. now rewrite Ak by auto. }
      fold W'. rewrite Ef, Elk. destruct (rd (l_fs W) k) as [f| | |]; cbn [bind]; auto.
      destruct (lookup (l_w W) k) as [tk| | |] eqn:Hl; cbn [bind]; auto. apply lookup_inv in Hl.
      destruct (l_init f); auto. change (lheap W') with h1.
      rewrite (expose_frame W ti h1 _ k tk HI Hl L); auto.
      intros p Hp. apply (Inv_raw_neq (l_w W) i k ti tk p); auto. apply HI.
    + split; exists []; now rewrite app_nil_r.
  - split; auto. split; auto. split; [unfold W'; cbn [lnotify lset l_fs]; rewrite nth_error_set_nth_neq by auto; apply nth_error_set_nth_eq; lia|].
    split; [unfold W'; cbn [lnotify lset l_fs]; apply nth_error_set_nth_eq; rewrite length_set_nth; lia|].
    intros p b Hp Hb. change (nth_error h1 p = Some (Some b)). destruct L as [_ [L2 _]]. rewrite L2; auto.
    + now apply nth_error_lt in Hb.
    + intros R. revert Hp. apply (Inv_raw_neq (l_w W) i j ti tj p); auto. apply HI.
Qed.

Lemma lstep_post W o W' : Good W -> lstep zero junk add sub eqb W o = Ok W' -> step_post W o W'.
Proof.
  intros HG E. pose proof HG as [HI HU]. destruct o; cbn [lstep] in E.
  - (* LTensor *)
    destruct (t_new_any (lheap W) s) as [h1 [t1 [En [L [He _]]]]]. rewrite En in E.
    destruct (assign_vector h1 t1 d (fun _ y => y)) as [h2| | |] eqn:Ea; try discriminate. cbn [bind] in E. injection E as <-.
    destruct (assign_vector_inv h1 t1 d _ h2 (local_wf _ _ _ _ L) Ea) as [p [b [Hb [Hd ->]]]].
    apply post_new; auto. eapply local_trans_put; eauto. rewrite length_zipw. destruct Hb as [_ [_ [-> _]]]. lia.
  - (* LConstScalar *)
    destruct (const_scalar_ok zero junk (lheap W) v) as [h1 [t1 [p [b [Ec [L [Hb [Hl Hs]]]]]]]]. rewrite Ec in E. cbn [bind fst snd] in E.
    injection E as <-. apply post_new; auto; [eapply local_trans_put; eauto|]. destruct Hb as [R _]. congruence.
  - (* LConst *)
    assert (Hne : s <> []) by (intros ->; cbn in E; discriminate).
    assert (X : exists s' h1 t1 p b, const_vector zero junk (lheap W) d s = Ok (hput h1 p (padded zero (n_elems s') d), t1) /\
      local (lheap W) blank h1 t1 /\ holdsb h1 t1 p b /\ length (padded zero (n_elems s') d) = length b).
    { destruct (is_fully_defined s) eqn:F.
      - destruct (const_vector_alloc zero junk (lheap W) d s F) as [h1 [t1 [p [b H]]]]. exists s, h1, t1, p, b. tauto.
      - destruct (const_vector_guess zero junk (lheap W) d s Hne F) as [s' [h1 [t1 [p [b H]]]]]. exists s', h1, t1, p, b. tauto. }
    destruct X as [s' [h1 [t1 [p [b [Ec [L [Hb Hl]]]]]]]]. rewrite Ec in E. cbn [bind fst snd] in E. injection E as <-.
    apply post_new; auto; [eapply local_trans_put; eauto|]. destruct Hb as [R _]. congruence.
  - (* LPlace *)
    destruct (t_new_any (lheap W) s) as [h1 [t1 [En [L [He _]]]]]. rewrite En in E. injection E as <-. now apply post_new.
  - (* LVarScalar *)
    destruct (t_new_holds junk (lheap W) [1] eq_refl) as [h1 [t1 [p [b [En [L [Hb [Es _]]]]]]]]. rewrite En in E.
    unfold var_initialize in E. rewrite (holdsb_alloc _ _ _ _ Hb) in E. cbn [bind] in E.
    rewrite (run_init_ok _ _ _ _ _ Hb) in E. cbn [bind fst snd] in E. injection E as <-.
    apply post_notify. apply post_new; auto.
    + eapply local_trans_put; eauto. rewrite map_length, seq_length. destruct Hb as [_ [_ [-> _]]]. auto.
    + destruct Hb as [R _]. congruence.
  - (* LVar *)
    destruct (t_new_any (lheap W) s) as [h1 [t1 [En [L [He _]]]]]. rewrite En in E. injection E as <-. now apply post_new.
  - (* LSetInit *)
    unfold lf in E. destruct (rd (l_fs W) i) as [f| | |] eqn:Ef; try discriminate. apply rd_Ok_inv in Ef. cbn [bind] in E.
    destruct (lookup (l_w W) i) as [t| | |] eqn:Et; try discriminate. apply lookup_inv in Et. cbn [bind] in E.
    destruct f as [k b]. cbn [l_kind l_init] in E. destruct k as [| | |o]; try discriminate. injection E as <-.
    pose proof (local_refl _ _ (LInv_wf _ _ _ HI Et)) as L.
    assert (He : raw t = None -> alloc_shape t = []) by (destruct HI as [_ [_ [_ He]]]; now apply (He i)).
    pose proof (tags_lset W (lheap W) i t (KVar (Some ini)) b _ Ef eq_refl) as Etg.
    split; [split; [eapply LInv_lset; eauto|eapply UInv_same; eauto]|]. split; [exists []; now rewrite app_nil_r|]. split.
    + intros k Hk _. destruct (Nat.eq_dec k i) as [->|Hne]; [|eapply observe_frame_lset; eauto].
      unfold observe, leaf_eval, lf. rewrite (rd_ok _ _ _ Ef), (lookup_ok _ _ _ Et).
      rewrite (rd_ok _ _ _ (fs_lset W _ i t _ _ Hk)), (lookup_ok _ _ _ (alive_lset W _ i t t _ _ Et)). reflexivity.
    + split; exists []; now rewrite app_nil_r.
  - (* LFeed *)
    unfold lf in E. destruct (rd (l_fs W) i) as [f| | |] eqn:Ef; try discriminate. apply rd_Ok_inv in Ef. cbn [bind] in E.
    destruct (lookup (l_w W) i) as [t| | |] eqn:Et; try discriminate. apply lookup_inv in Et. cbn [bind] in E.
    destruct f as [k b]. cbn [l_kind l_init] in E. destruct k; try discriminate.
    destruct (ph_assign zero junk (lheap W) t d) as [[h2 t2]| | |] eqn:Ep; try discriminate. cbn [bind fst snd] in E. injection E as <-.
    unfold ph_assign in Ep. destruct (t_compat_data t (length d)); [|discriminate]. cbn [assert_ bind] in Ep.
    pose proof (LInv_wf _ _ _ HI Et) as Wt.
    assert (X : exists h1 t1, (if is_alloc t then Ok (lheap W, t)
        else
          g <- guess_shape (allowed_shape t) (length d) ;;
          match g with
          | None => Throw
          | Some cand => a <- t_allocate_shape zero junk (lheap W) t cand ;; Ok (fst a)
          end) = Ok (h1, t1) /\ local (lheap W) t h1 t1).
    { destruct (is_alloc t) eqn:A.
      - eexists _, _. split; [reflexivity|]. now apply local_refl.
      - destruct (guess_shape (allowed_shape t) (length d)) as [[g|]| | |]; try discriminate. cbn [bind] in *.
        destruct (t_allocate_shape_ok zero junk (lheap W) t g Wt) as [h1 [t1 [ok [Ea [L _]]]]]. rewrite Ea. cbn [bind fst]. eauto. }
    destruct X as [h1 [t1 [Ex L]]]. rewrite Ex in Ep. cbn [bind] in Ep.
    destruct (assign_vector h1 t1 d (fun _ y => y)) as [h3| | |] eqn:Ea; try discriminate. cbn [bind] in Ep. injection Ep as <- <-.
    destruct (assign_vector_inv h1 t1 d _ h3 (local_wf _ _ _ _ L) Ea) as [p [b1 [Hb [Hd ->]]]].
    apply post_notify. eapply post_set; eauto; cbn [writes]; auto.
    + eapply local_trans_put; eauto. rewrite length_zipw. destruct Hb as [_ [_ [-> _]]]. lia.
    + destruct Hb as [R _]. congruence.
  - (* LFeedTensor *)
    unfold lf in E. destruct (rd (l_fs W) i) as [[ki bi]| | |] eqn:Ef; try discriminate. apply rd_Ok_inv in Ef. cbn [bind] in E.
    destruct (rd (l_fs W) j) as [[kj bj]| | |] eqn:Efj; try discriminate. apply rd_Ok_inv in Efj. cbn [bind] in E.
    destruct (lookup (l_w W) i) as [ti| | |] eqn:Et; try discriminate. pose proof Et as Et'. apply lookup_inv in Et. cbn [bind] in E.
    destruct (lookup (l_w W) j) as [tj| | |] eqn:Etj; try discriminate. pose proof Etj as Etj'. apply lookup_inv in Etj. cbn [bind] in E.
    cbn [l_kind] in E. destruct ki; try discriminate. destruct kj; try discriminate.
    assert (Hne : i <> j) by (intros ->; congruence).
    destruct (feed_tensor_step W i j ti tj bi HG Et Etj Hne Ef (ex_intro _ bj Efj)) as [W1 [E1 [H1 _]]].
    cbn [lstep] in E1. unfold lf in E1. rewrite (rd_ok _ _ _ Ef), (rd_ok _ _ _ Efj), Et', Etj' in E1. cbn [bind l_kind] in E1.
    rewrite E1 in E. injection E as <-. exact H1.
  - (* LInit *)
    unfold lf in E. destruct (rd (l_fs W) i) as [f| | |] eqn:Ef; try discriminate. apply rd_Ok_inv in Ef. cbn [bind] in E.
    destruct (lookup (l_w W) i) as [t| | |] eqn:Et; try discriminate. apply lookup_inv in Et. cbn [bind] in E.
    destruct f as [k b]. cbn [l_kind l_init] in E. destruct k as [| | |o]; try discriminate.
    destruct o as [f|]; [|discriminate].
    pose proof (LInv_wf _ _ _ HI Et) as Wt.
    assert (He : raw t = None -> alloc_shape t = []) by (destruct HI as [_ [_ [_ He]]]; now apply (He i)).
    assert (D : defined (get_shape t)).
    { destruct (is_fully_defined (get_shape t)) eqn:F; [now apply is_fully_defined_iff|].
      rewrite (var_initialize_throw zero junk _ _ f Wt He) in E; [discriminate|]. intros D. apply is_fully_defined_iff in D. congruence. }
    destruct (var_initialize_ok zero junk _ _ f Wt He D) as [h1 [t1 [p [b1 [Ev [L [Hb [Hl Hs]]]]]]]].
    rewrite Ev in E. cbn [bind fst snd] in E. injection E as <-. apply post_notify.
    eapply post_set; eauto; cbn [writes]; auto.
    + eapply local_trans_put; eauto. now rewrite map_length, seq_length.
    + destruct Hb as [R _]. congruence.
  - (* LInitShape *)
    unfold lf in E. destruct (rd (l_fs W) i) as [f| | |] eqn:Ef; try discriminate. apply rd_Ok_inv in Ef. cbn [bind] in E.
    destruct (lookup (l_w W) i) as [t| | |] eqn:Et; try discriminate. apply lookup_inv in Et. cbn [bind] in E.
    destruct f as [k b]. cbn [l_kind l_init] in E. destruct k as [| | |o]; try discriminate.
    destruct o as [f|]; [|discriminate]. cbn [var_initialize_shape] in E.
    pose proof (LInv_wf _ _ _ HI Et) as Wt.
    destruct (t_allocate_shape_ok zero junk (lheap W) t s Wt) as [h1 [t1 [ok [Ea [L [_ [_ Ht]]]]]]]. rewrite Ea in E. cbn [bind] in E.
    destruct ok; [|discriminate]. destruct (Ht eq_refl) as [_ [_ [_ A]]].
    destruct (wf_holdsb _ _ (local_wf _ _ _ _ L) A) as [p [b1 Hb]]. rewrite (run_init_ok _ _ _ _ _ Hb) in E. cbn [bind fst snd] in E.
    injection E as <-. apply post_notify. eapply post_set; eauto; cbn [writes]; auto.
    + eapply local_trans_put; eauto. rewrite map_length, seq_length. destruct Hb as [_ [_ [-> _]]]. auto.
    + destruct Hb as [R _]. congruence.
  - (* LUpdater *)
    unfold lf in E. destruct (rd (l_fs W) i) as [f| | |] eqn:Ef; try discriminate. apply rd_Ok_inv in Ef. cbn [bind] in E.
    destruct f as [k b]. cbn [l_kind l_init] in E. destruct k as [| | |o]; try discriminate.
    destruct (make_updater zero eqb W a i j) as [u| | |] eqn:Eu; try discriminate. cbn [bind] in E. injection E as <-.
    assert (Hu : u = UNop \/ (exists d, u = UData a i d) \/ u = UNode a i j).
    { unfold make_updater, lf in Eu. destruct (rd (l_fs W) j) as [fj| | |]; try discriminate. cbn [bind] in Eu.
      destruct (lookup (l_w W) j) as [tj| | |]; try discriminate. cbn [bind] in Eu.
      destruct (l_kind fj); try (injection Eu as <-; auto).
      destruct (match a with ASet => Ok false | _ => const_eqb eqb (lheap W) tj zero end) as [[|]| | |]; try discriminate; cbn [bind] in Eu.
      - injection Eu as <-. auto.
      - destruct (t_expose (lheap W) tj); try discriminate. cbn [bind] in Eu. injection Eu as <-. eauto. }
    split; [split|].
    + exact HI.
    + intros v a' i' Hv. change (tags (ladd_upd W u)) with (tags W). cbn [ladd_upd l_us] in Hv.
      destruct (Nat.lt_ge_cases v (length (l_us W))) as [Hlt|Hge].
      * rewrite nth_error_app1 in Hv by auto. eapply HU; eauto.
      * rewrite nth_error_app2 in Hv by auto. assert (i' = i).
        { destruct (v - length (l_us W)) as [|m]; simpl in Hv.
          - destruct Hv as [[d Hv]|[j' Hv]]; destruct Hu as [Hu|[[d' Hu]|Hu]]; subst u; congruence.
          - destruct m; destruct Hv as [[d Hv]|[j' Hv]]; discriminate. }
        subst i'. unfold tags. rewrite nth_error_map, Ef. reflexivity.
    + split; [exists []; now rewrite app_nil_r|]. split; [intros; now apply observe_other|]. split; [exists [u]; reflexivity|exists []; now rewrite app_nil_r].
  - (* LRun *)
    destruct (rd (l_us W) u) as [x| | |] eqn:Ex; try discriminate. apply rd_Ok_inv in Ex. cbn [bind] in E.
    destruct x as [|a i d|a i j]; cbn [run_updater] in E.
    + injection E as <-. split; [exact HG|]. split; [exists []; now rewrite app_nil_r|]. split; auto. split; exists []; now rewrite app_nil_r.
    + destruct (lookup (l_w W) i) as [t| | |] eqn:Et; try discriminate. apply lookup_inv in Et. cbn [bind] in E.
      destruct (assign_vector (lheap W) t d (asg_fun add sub a)) as [h| | |] eqn:Ea; try discriminate. cbn [bind] in E. injection E as <-.
      destruct (assign_vector_inv _ _ _ _ _ (LInv_wf _ _ _ HI Et) Ea) as [p [b [Hb [Hd ->]]]].
      assert (P : step_post W (LRun u notify) (lput W (hput (lheap W) p (zipw (asg_fun add sub a) b d)))).
      { apply (post_put W _ i t p b); auto.
        - rewrite length_zipw. destruct Hb as [_ [_ [-> _]]]. lia.
        - cbn [writes]. rewrite Ex. auto. }
      destruct notify; [apply post_notify|]; exact P.
    + destruct (lookup (l_w W) i) as [t| | |] eqn:Et; try discriminate. apply lookup_inv in Et. cbn [bind] in E.
      unfold leaf_eval, lf in E. destruct (rd (l_fs W) j) as [fj| | |]; try discriminate. cbn [bind] in E.
      destruct (lookup (l_w W) j) as [tj| | |] eqn:Etj; try discriminate. apply lookup_inv in Etj. cbn [bind] in E.
      destruct (l_init fj); [|discriminate].
      destruct (assign_tensor (lheap W) t tj (asg_fun add sub a)) as [h| | |] eqn:Ea; try discriminate. cbn [bind] in E. injection E as <-.
      destruct (assign_tensor_inv _ _ _ _ _ (LInv_wf _ _ _ HI Et) (LInv_wf _ _ _ HI Etj) Ea) as [p [b [q [d [Hb [Hd [Hl ->]]]]]]].
      assert (P : step_post W (LRun u notify) (lput W (hput (lheap W) p (zipw (asg_fun add sub a) b d)))).
      { apply (post_put W _ i t p b); auto.
        - rewrite length_zipw. lia.
        - cbn [writes]. rewrite Ex. auto. }
      destruct notify; [apply post_notify|]; exact P.
  - (* LClone *)
    unfold lf in E. destruct (rd (l_fs W) i) as [f| | |] eqn:Ef; try discriminate. apply rd_Ok_inv in Ef. cbn [bind] in E.
    destruct (lookup (l_w W) i) as [t| | |] eqn:Et; try discriminate. apply lookup_inv in Et. cbn [bind] in E.
    destruct (t_copy_helper_ok junk (lheap W) blank t (negb (l_init f)) (wf_blank _) (LInv_wf _ _ _ HI Et)) as [h1 [t1 [Ec [L [H1 [H2 [H3 H4]]]]]]]; [discriminate|].
    assert (He1 : raw t1 = None -> alloc_shape t1 = []).
    { intros R. rewrite H1. pose proof HI as [_ [_ [_ He]]]. apply (He i t Et). destruct (is_alloc t) eqn:A.
      - exfalso. unfold t_copy_helper in Ec. rewrite A in Ec. cbn [hfree raw blank bind halloc] in Ec.
        destruct (negb (l_init f)); [injection Ec as <- <-; discriminate|].
        destruct (raw t) as [po|]; [|discriminate].
        destruct (hget (lheap W ++ _) po) as [sb| | |]; try discriminate. cbn [bind] in Ec.
        destruct (hget (lheap W ++ _) (length (lheap W))) as [db| | |]; try discriminate. cbn [bind] in Ec.
        destruct (memcpy db 0 sb 0 _) as [m| | |]; try discriminate. cbn [bind] in Ec. injection Ec as <- <-. discriminate.
      - apply (wf_not_alloc (lheap W)); auto. eapply LInv_wf; eauto. }
    rewrite Ec in E. cbn [bind fst snd] in E.
    destruct (l_kind f); try discriminate; injection E as <-; apply post_new; auto.
Qed.

Lemma lrun_good ops : forall W W', Good W -> lrun zero junk add sub eqb W ops = Ok W' -> Good W'.
Proof.
  induction ops as [|o ops IH]; intros W W' HG E; cbn [lrun] in E; [congruence|].
  destruct (lstep zero junk add sub eqb W o) as [W1| | |] eqn:E1; try discriminate. cbn [bind] in E.
  apply (IH W1); auto. apply (lstep_post W o); auto.
Qed.

Lemma Good_init : Good linit.
Proof. split; [apply LInv_init|]. intros [|u] a i [[d H]|[j H]]; discriminate. Qed.

Lemma lrun_post ops : forall W W', Good W -> lrun zero junk add sub eqb W ops = Ok W' ->
  (exists more, tags W' = tags W ++ more) /\ (exists more, l_us W' = l_us W ++ more).
Proof.
  induction ops as [|o ops IH]; intros W W' HG E; cbn [lrun] in E.
  - injection E as <-. split; exists []; now rewrite app_nil_r.
  - destruct (lstep zero junk add sub eqb W o) as [W1| | |] eqn:E1; try discriminate. cbn [bind] in E.
    destruct (lstep_post W o W1 HG E1) as [HG1 [[m1 H1] [_ [[m2 H2] _]]]].
    destruct (IH W1 W' HG1 E) as [[n1 K1] [n2 K2]]. split.
    + exists (m1 ++ n1). now rewrite K1, H1, app_assoc.
    + exists (m2 ++ n2). now rewrite K2, H2, app_assoc.
Qed.

Lemma const_not_written W o k : Good W -> is_const W k -> forall W', lstep zero junk add sub eqb W o = Ok W' -> ~ writes W o k.
Proof.
  intros [HI HU] [b Hc] W' E Hw. destruct o; cbn [writes lstep] in *; try contradiction; unfold lf in E.
  - subst k. rewrite (rd_ok _ _ _ Hc) in E. cbn [bind] in E. destruct (lookup (l_w W) i); discriminate.
  - destruct Hw as [->| ->].
    + rewrite (rd_ok _ _ _ Hc) in E. cbn [bind] in E. destruct (rd (l_fs W) j); try discriminate. cbn [bind] in E.
      destruct (lookup (l_w W) i); try discriminate. cbn [bind] in E. destruct (lookup (l_w W) j); discriminate.
    + destruct (rd (l_fs W) i) as [fi| | |]; try discriminate. cbn [bind] in E. rewrite (rd_ok _ _ _ Hc) in E. cbn [bind] in E.
      destruct (lookup (l_w W) i); try discriminate. cbn [bind] in E. destruct (lookup (l_w W) j); try discriminate. cbn [bind l_kind] in E.
      destruct (l_kind fi); discriminate.
  - subst k. rewrite (rd_ok _ _ _ Hc) in E. cbn [bind] in E. destruct (lookup (l_w W) i); discriminate.
  - subst k. rewrite (rd_ok _ _ _ Hc) in E. cbn [bind] in E. destruct (lookup (l_w W) i); discriminate.
  - destruct (nth_error (l_us W) u) as [[|a i d|a i j]|] eqn:Eu; try contradiction; subst k.
    + assert (X : nth_error (tags W) i = Some 3) by (eapply HU; eauto). unfold tags in X. rewrite nth_error_map, Hc in X. discriminate.
    + assert (X : nth_error (tags W) i = Some 3) by (eapply HU; eauto). unfold tags in X. rewrite nth_error_map, Hc in X. discriminate.
Qed.

Lemma is_const_tags W k : is_const W k <-> nth_error (tags W) k = Some 1.
Proof.
  unfold is_const, has_kind, tags. rewrite nth_error_map. split.
  - intros [b ->]. reflexivity.
  - destruct (nth_error (l_fs W) k) as [[[| | |i] b]|]; try discriminate. eauto.
Qed.

Lemma const_forever ops : forall W W' k, Good W -> is_const W k -> lrun zero junk add sub eqb W ops = Ok W' ->
  is_const W' k /\ observe W' k = observe W k.
Proof.
  induction ops as [|o ops IH]; intros W W' k HG Hc E; cbn [lrun] in E; [injection E as <-; auto|].
  destruct (lstep zero junk add sub eqb W o) as [W1| | |] eqn:E1; try discriminate. cbn [bind] in E.
  destruct (lstep_post W o W1 HG E1) as [HG1 [[m Hm] [Hf _]]].
  assert (Hc1 : is_const W1 k).
  { apply is_const_tags. apply is_const_tags in Hc. rewrite Hm. rewrite nth_error_app1; auto. now apply nth_error_lt in Hc. }
  destruct (IH W1 W' k HG1 Hc1 E) as [H1 H2]. split; auto. rewrite H2. apply Hf.
  - destruct Hc as [b Hc]. now apply nth_error_lt in Hc.
  - eapply const_not_written; eauto.
Qed.

Lemma reach_good ops W : lrun zero junk add sub eqb linit ops = Ok W -> Good W.
Proof. intros E. eapply lrun_good; eauto. apply Good_init. Qed.

End Steps.

(** ---- C33 ---- *)

(** Feeding a placeholder: accepted exactly when the placeholder's current shape can be
    completed to one with as many elements as there are values; then evaluating it gives
    those values, every other node is unchanged and exactly one notification is sent. *)
Lemma C33_feed_reads_back_lemma :
  forall (T : Type) (zero junk : T) add sub eqb ops (W : lworld) i s (d : list T),
    lrun zero junk add sub eqb linit ops = Ok W -> is_place W i -> shape_of W i s ->
    (exists s', completes s s' /\ n_elems s' = length d) ->
    exists W' s1, lstep zero junk add sub eqb W (LFeed i d) = Ok W' /\
      observe W' i = Ok (Some (s1, d)) /\ completes s s1 /\ n_elems s1 = length d /\
      (defined s -> s1 = s) /\ l_log W' = l_log W ++ [i] /\ others_same W W' i.
Proof.
  intros T zero junk add sub eqb ops W i s d Er [b Hf] [t [Ha Hs]] [s' [HC Hn]].
  destruct (reach_good _ _ _ _ _ _ _ Er) as [HI HU]. subst s.
  destruct (ph_assign_ok zero junk (lheap W) t d s' (LInv_wf _ _ _ HI Ha) HC Hn) as [h1 [t1 [p [b1 [s1 [E [L [Hb [Hl [Hs1 [HC1 Hn1]]]]]]]]]]].
  cbn [lstep]. unfold lf. rewrite (rd_ok _ _ _ Hf), (lookup_ok _ _ _ Ha). cbn [bind l_kind]. rewrite E. cbn [bind fst snd].
  destruct (write_back W i t h1 t1 p b1 d KPlace HI Ha L Hb Hl) as [_ [H2 H3]].
  eexists _, s1. split; [reflexivity|]. split; [rewrite <- Hs1; exact H2|]. split; auto. split; auto.
  split; [intros D; now apply completes_defined_eq|]. split; [reflexivity|exact H3].
Qed.

(** Any other number of values fails the assertion in operator= (nothing is stored). *)
Lemma C33_feed_rejects_lemma :
  forall (T : Type) (zero junk : T) add sub eqb ops (W : lworld) i s (d : list T),
    lrun zero junk add sub eqb linit ops = Ok W -> is_place W i -> shape_of W i s ->
    (forall s', completes s s' -> n_elems s' <> length d) ->
    lstep zero junk add sub eqb W (LFeed i d) = Abort.
Proof.
  intros T zero junk add sub eqb ops W i s d Er [b Hf] [t [Ha Hs]] HN.
  destruct (reach_good _ _ _ _ _ _ _ Er) as [HI HU]. subst s.
  cbn [lstep]. unfold lf. rewrite (rd_ok _ _ _ Hf), (lookup_ok _ _ _ Ha). cbn [bind l_kind].
  rewrite (ph_assign_abort zero junk (lheap W) t d (LInv_wf _ _ _ HI Ha) HN). reflexivity.
Qed.

(** Feeding a tensor object replaces shape and contents by the tensor's. *)
Lemma C33_feed_tensor_lemma :
  forall (T : Type) (zero junk : T) add sub eqb ops (W : lworld) i j s (d : list T),
    lrun zero junk add sub eqb linit ops = Ok W -> is_place W i -> has_kind W j KTensor ->
    observe W j = Ok (Some (s, d)) ->
    exists W', lstep zero junk add sub eqb W (LFeedTensor i j) = Ok W' /\
      observe W' i = Ok (Some (s, d)) /\ l_log W' = l_log W ++ [i] /\
      (forall k, k <> i -> k <> j -> k < length (l_fs W) -> observe W' k = observe W k).
Proof.
  intros T zero junk add sub eqb ops W i j s d Er [b Hf] [bj Hfj] Ho.
  pose proof (reach_good _ _ _ _ _ _ _ Er) as HG. pose proof HG as [HI HU].
  destruct (observe_inv W j s d HI Ho) as [tj [p [k [Hj [Hb [Hk Hs]]]]]].
  destruct (LInv_alive W i _ HI Hf) as [ti Hi].
  assert (Hne : i <> j) by (intros ->; congruence).
  destruct (feed_tensor_step zero junk add sub eqb W i j ti tj b HG Hi Hj Hne Hf (ex_intro _ _ Hfj)) as [W' [E [HP [HL [A1 [A2 [F1 [F2 Hp]]]]]]]].
  exists W'. split; auto. split; [|split; auto].
  - rewrite <- Hs. change (alloc_shape tj) with (alloc_shape (mkT (raw tj) (alloc_shape tj) (allowed_shape tj))).
    apply (observe_holds W' i _ p d KPlace A1); auto. destruct Hb as [R [Hq [Hl D]]]. split; [exact R|]. split; auto.
  - intros k' H1 H2 H3. destruct HP as [_ [_ [Hfr _]]]. apply Hfr; auto. cbn [writes]. tauto.
Qed.

(** ... and empties the argument, although operator=(tensor&) takes an lvalue. *)
Lemma C33_feed_tensor_keeps_argument_refuted_lemma :
  forall (T : Type) (zero junk : T) add sub eqb ops (W : lworld) i j s (d : list T),
    lrun zero junk add sub eqb linit ops = Ok W -> is_place W i -> has_kind W j KTensor ->
    observe W j = Ok (Some (s, d)) ->
    exists W', lstep zero junk add sub eqb W (LFeedTensor i j) = Ok W' /\
      observe W' j = Abort /\ shape_of W' j [].
Proof.
  intros T zero junk add sub eqb ops W i j s d Er [b Hf] [bj Hfj] Ho.
  pose proof (reach_good _ _ _ _ _ _ _ Er) as HG. pose proof HG as [HI HU].
  destruct (observe_inv W j s d HI Ho) as [tj [p [k [Hj [Hb [Hk Hs]]]]]].
  destruct (LInv_alive W i _ HI Hf) as [ti Hi].
  assert (Hne : i <> j) by (intros ->; congruence).
  destruct (feed_tensor_step zero junk add sub eqb W i j ti tj b HG Hi Hj Hne Hf (ex_intro _ _ Hfj)) as [W' [E [HP [HL [A1 [A2 [F1 [F2 Hp]]]]]]]].
  exists W'. split; auto. split; [|exists (mkT None [] []); split; auto].
  unfold observe, leaf_eval, lf. rewrite (rd_ok _ _ _ F2), (lookup_ok _ _ _ A2). reflexivity.
Qed.

(** initialize(): with an initializer and a fully defined shape every element is what the
    initializer yields; without a defined shape it throws, without initializer it asserts. *)
Lemma C33_initialize_lemma :
  forall (T : Type) (zero junk : T) add sub eqb ops (W : lworld) i s (f : nat -> T),
    lrun zero junk add sub eqb linit ops = Ok W -> has_kind W i (KVar (Some f)) -> shape_of W i s ->
    (defined s -> exists W', lstep zero junk add sub eqb W (LInit i) = Ok W' /\
       observe W' i = Ok (Some (s, map f (seq 0 (n_elems s)))) /\
       l_log W' = l_log W ++ [i] /\ others_same W W' i) /\
    (~ defined s -> lstep zero junk add sub eqb W (LInit i) = Throw).
Proof.
  intros T zero junk add sub eqb ops W i s f Er [b Hf] [t [Ha Hs]].
  destruct (reach_good _ _ _ _ _ _ _ Er) as [HI HU]. subst s.
  assert (He : raw t = None -> alloc_shape t = []) by (destruct HI as [_ [_ [_ He]]]; now apply (He i)).
  cbn [lstep]. unfold lf. rewrite (rd_ok _ _ _ Hf), (lookup_ok _ _ _ Ha). cbn [bind l_kind]. split; intros D.
  - destruct (var_initialize_ok zero junk _ _ f (LInv_wf _ _ _ HI Ha) He D) as [h1 [t1 [p [b1 [E [L [Hb [Hl Hs]]]]]]]].
    rewrite E. cbn [bind fst snd]. eexists. split; [reflexivity|].
    destruct (write_back W i t h1 t1 p b1 (map f (seq 0 (n_elems (get_shape t)))) (KVar (Some f)) HI Ha L Hb) as [_ [H2 H3]].
    { now rewrite map_length, seq_length. }
    split; [rewrite Hs in H2; exact H2|]. split; [reflexivity|exact H3].
  - now rewrite (var_initialize_throw zero junk _ _ f (LInv_wf _ _ _ HI Ha) He D).
Qed.

Lemma C33_initialize_without_initializer_lemma :
  forall (T : Type) (zero junk : T) add sub eqb ops (W : lworld) i s,
    lrun zero junk add sub eqb linit ops = Ok W -> has_kind W i (KVar None) ->
    lstep zero junk add sub eqb W (LInit i) = Abort /\ lstep zero junk add sub eqb W (LInitShape i s) = Abort.
Proof.
  intros T zero junk add sub eqb ops W i s Er [b Hf].
  destruct (reach_good _ _ _ _ _ _ _ Er) as [HI HU]. destruct (LInv_alive W i _ HI Hf) as [t Ha].
  cbn [lstep]. unfold lf. rewrite (rd_ok _ _ _ Hf), (lookup_ok _ _ _ Ha). split; reflexivity.
Qed.

(** initialize(shape) on a variable without data: exactly for fully defined shapes
    compatible with the declared one. *)
Lemma C33_initialize_shape_lemma :
  forall (T : Type) (zero junk : T) add sub eqb ops (W : lworld) i s0 s (f : nat -> T),
    lrun zero junk add sub eqb linit ops = Ok W -> has_kind W i (KVar (Some f)) -> shape_of W i s0 -> ~ defined s0 ->
    (defined s /\ is_compatible_with s s0 = Ok true ->
       exists W', lstep zero junk add sub eqb W (LInitShape i s) = Ok W' /\
         observe W' i = Ok (Some (s, map f (seq 0 (n_elems s)))) /\
         l_log W' = l_log W ++ [i] /\ others_same W W' i) /\
    (~ (defined s /\ is_compatible_with s s0 = Ok true) -> lstep zero junk add sub eqb W (LInitShape i s) = Throw).
Proof.
  intros T zero junk add sub eqb ops W i s0 s f Er [b Hf] [t [Ha Hs]] Hnd.
  destruct (reach_good _ _ _ _ _ _ _ Er) as [HI HU]. subst s0. pose proof (LInv_wf _ _ _ HI Ha) as Wt.
  assert (A : is_alloc t = false).
  { destruct (is_alloc t) eqn:A; auto. exfalso. apply Hnd. destruct (wf_holdsb _ t Wt A) as [p [b1 H]]. rewrite (holdsb_shape _ _ _ _ H). apply H. }
  assert (Gs : get_shape t = allowed_shape t) by (unfold get_shape; now rewrite A). rewrite Gs.
  cbn [lstep]. unfold lf. rewrite (rd_ok _ _ _ Hf), (lookup_ok _ _ _ Ha). cbn [bind l_kind var_initialize_shape]. split.
  - intros [D C]. destruct (allocate_holds zero junk _ t s Wt A (proj2 (is_fully_defined_iff s) D) C) as [h1 [t1 [p [b1 [E [L [Hb [Hs _]]]]]]]].
    rewrite E. cbn [bind]. rewrite (run_init_ok _ _ _ _ _ Hb). cbn [bind fst snd]. eexists. split; [reflexivity|].
    destruct (write_back W i t h1 t1 p b1 (map f (seq 0 (n_elems (alloc_shape t1)))) (KVar (Some f)) HI Ha L Hb) as [_ [H2 H3]].
    { rewrite map_length, seq_length. destruct Hb as [_ [_ [-> _]]]. auto. }
    split; [rewrite Hs in *; exact H2|]. split; [reflexivity|exact H3].
  - intros N. destruct (t_allocate_shape_ok zero junk _ t s Wt) as [h1 [t1 [ok [E [L [_ [_ Ht]]]]]]]. rewrite E. cbn [bind].
    destruct ok; auto. exfalso. apply N. destruct (Ht eq_refl) as [D [_ [C _]]]. auto.
Qed.

(** A variable that already holds data of a compatible shape cannot be initialised with
    that shape again: allocate returns false and initialize(shape) throws. *)
Lemma C33_reinitialize_shape_refuted_lemma :
  forall (T : Type) (zero junk : T) add sub eqb ops (W : lworld) i s (d : list T) (f : nat -> T),
    lrun zero junk add sub eqb linit ops = Ok W -> has_kind W i (KVar (Some f)) -> observe W i = Ok (Some (s, d)) ->
    lstep zero junk add sub eqb W (LInitShape i s) = Throw.
Proof.
  intros T zero junk add sub eqb ops W i s d f Er [b Hf] Ho.
  destruct (reach_good _ _ _ _ _ _ _ Er) as [HI HU].
  destruct (observe_inv W i s d HI Ho) as [t [p [k [Ha [Hb [Hk <-]]]]]].
  cbn [lstep]. unfold lf. rewrite (rd_ok _ _ _ Hf), (lookup_ok _ _ _ Ha). cbn [bind l_kind var_initialize_shape].
  unfold t_allocate_shape. rewrite compat_refl, (holdsb_alloc _ _ _ _ Hb). reflexivity.
Qed.

(** an initialised variable: what its updaters do. The input's value is taken when the
    updater is called. Holds for the variable itself as input too. *)
Lemma C33_updater_from_node_lemma :
  forall (T : Type) (zero junk : T) add sub eqb ops ops2 (W W1 W2 : lworld) a i j s (x y : list T) sj notify,
    lrun zero junk add sub eqb linit ops = Ok W -> ~ is_const W j ->
    lstep zero junk add sub eqb W (LUpdater a i j) = Ok W1 -> lrun zero junk add sub eqb W1 ops2 = Ok W2 ->
    observe W2 i = Ok (Some (s, x)) -> observe W2 j = Ok (Some (sj, y)) ->
    let u := length (l_us W) in
    (length y = length x ->
       exists W3, lstep zero junk add sub eqb W2 (LRun u notify) = Ok W3 /\
         observe W3 i = Ok (Some (s, zipw (match a with ASet => fun _ v => v | AAdd => add | ASub => sub end) x y)) /\
         l_log W3 = l_log W2 ++ (if notify then [i] else []) /\ others_same W2 W3 i) /\
    (length y <> length x -> lstep zero junk add sub eqb W2 (LRun u notify) = Abort).
Proof.
  intros T zero junk add sub eqb ops ops2 W W1 W2 a i j s x y sj notify Er Hnc E1 Er2 Hi Hj u.
  pose proof (reach_good _ _ _ _ _ _ _ Er) as HG.
  pose proof (lstep_post _ _ _ _ _ _ _ _ HG E1) as [HG1 _].
  destruct (lrun_post _ _ _ _ _ _ _ _ HG1 Er2) as [_ [m Em]].
  pose proof (lrun_good _ _ _ _ _ _ _ _ HG1 Er2) as [HI2 HU2].
  assert (Eu : nth_error (l_us W2) u = Some (UNode a i j)).
  { cbn [lstep] in E1. unfold lf in E1. destruct (rd (l_fs W) i) as [[[| | |o] b]| | |]; try discriminate. cbn [bind l_kind] in E1.
    unfold make_updater, lf in E1. destruct (rd (l_fs W) j) as [fj| | |] eqn:Efj; try discriminate. cbn [bind] in E1. apply rd_Ok_inv in Efj.
    destruct (lookup (l_w W) j) as [tj| | |]; try discriminate. cbn [bind] in E1.
    assert (E2 : W1 = ladd_upd W (UNode a i j)).
    { destruct fj as [kj bj]. cbn [l_kind] in E1. destruct kj; try (cbn [bind] in E1; congruence). exfalso. apply Hnc. exists bj. exact Efj. }
    rewrite Em, E2. cbn [ladd_upd l_us]. rewrite <- app_assoc, nth_error_app2 by (unfold u; lia). unfold u. now rewrite Nat.sub_diag. }
  destruct (observe_inv W2 i s x HI2 Hi) as [t [p [k [Ha [Hb [Hk Hs]]]]]].
  destruct (observe_inv W2 j sj y HI2 Hj) as [tj [q [kj [Haj [Hbj [Hkj Hsj]]]]]].
  cbn [lstep]. rewrite (rd_ok _ _ _ Eu). cbn [bind run_updater]. rewrite (lookup_ok _ _ _ Ha). cbn [bind].
  unfold leaf_eval, lf. rewrite (rd_ok _ _ _ Hkj), (lookup_ok _ _ _ Haj). cbn [bind l_init].
  split; intros Hl.
  - rewrite (assign_tensor_ok _ _ _ _ _ _ _ (asg_fun add sub a) Hb Hbj Hl). cbn [bind]. eexists. split; [reflexivity|].
    fold (asg_fun add sub a).
    assert (Lz : length (zipw (asg_fun add sub a) x y) = length x) by (rewrite length_zipw; lia).
    pose proof (holdsb_put _ _ _ _ _ Hb Lz) as Hb'.
    assert (K : observe (lput W2 (hput (lheap W2) p (zipw (asg_fun add sub a) x y))) i = Ok (Some (s, zipw (asg_fun add sub a) x y))).
    { rewrite <- Hs. eapply (observe_holds (lput W2 _) i t p _ k); eauto. }
    pose proof (observe_frame_lput W2 i t p x _ HI2 Ha Hb Lz) as K2.
    destruct notify; (split; [exact K|split; [|exact K2]]); cbn [lnotify l_log]; auto. now rewrite app_nil_r.
  - unfold assign_tensor. rewrite (holdsb_shape _ _ _ _ Hb), (holdsb_nelems _ _ _ _ Hbj).
    destruct Hb as [_ [_ [<- _]]]. destruct Hbj as [_ [_ [<- _]]]. apply Nat.eqb_neq in Hl. now rewrite Hl.
Qed.

(** Input is a constant: its data is captured when the updater is made (constants never
    change, C34). The constant must have at least as many elements as the variable and only
    its leading elements are used -- except that adding or subtracting a scalar constant 0
    is accepted for a variable of any size. *)
Lemma C33_updater_from_constant_lemma :
  forall (T : Type) (zero junk : T) add sub eqb ops ops2 (W W1 W2 : lworld) a i j s (x c : list T) sc notify,
    (forall v, add v zero = v) -> (forall v, sub v zero = v) -> (forall u v, eqb u v = true <-> u = v) ->
    lrun zero junk add sub eqb linit ops = Ok W -> is_const W j -> observe W j = Ok (Some (sc, c)) ->
    lstep zero junk add sub eqb W (LUpdater a i j) = Ok W1 -> lrun zero junk add sub eqb W1 ops2 = Ok W2 ->
    observe W2 i = Ok (Some (s, x)) ->
    let u := length (l_us W) in
    (length x <= length c ->
       exists W3, lstep zero junk add sub eqb W2 (LRun u notify) = Ok W3 /\
         observe W3 i = Ok (Some (s, zipw (match a with ASet => fun _ v => v | AAdd => add | ASub => sub end) x c)) /\
         others_same W2 W3 i) /\
    (length c < length x -> c = [zero] /\ a <> ASet -> lstep zero junk add sub eqb W2 (LRun u notify) = Ok W2) /\
    (length c < length x -> ~ (c = [zero] /\ a <> ASet) -> lstep zero junk add sub eqb W2 (LRun u notify) = Abort).
Proof.
  intros T zero junk add sub eqb ops ops2 W W1 W2 a i j s x c sc notify Hadd Hsub Heq Er [bj Hc] Hj E1 Er2 Hi u.
  pose proof (reach_good _ _ _ _ _ _ _ Er) as HG. pose proof HG as [HI HU].
  pose proof (lstep_post _ _ _ _ _ _ _ _ HG E1) as [HG1 _].
  destruct (lrun_post _ _ _ _ _ _ _ _ HG1 Er2) as [_ [m Em]].
  pose proof (lrun_good _ _ _ _ _ _ _ _ HG1 Er2) as [HI2 HU2].
  destruct (observe_inv W j sc c HI Hj) as [tj [q [kj [Haj [Hbj [Hkj Hsj]]]]]].
  set (z := match a with ASet => false | _ => match c with [v] => eqb zero v | _ => false end end).
  assert (Eu : nth_error (l_us W2) u = Some (if z then UNop else UData a i c)).
  { cbn [lstep] in E1. unfold lf in E1. destruct (rd (l_fs W) i) as [[[| | |o] b]| | |]; try discriminate. cbn [bind l_kind] in E1.
    unfold make_updater, lf in E1. rewrite (rd_ok _ _ _ Hc), (lookup_ok _ _ _ Haj) in E1. cbn [bind l_kind] in E1.
    assert (Ez : (match a with ASet => Ok false | _ => const_eqb eqb (lheap W) tj zero end) = Ok z).
    { unfold const_eqb. rewrite (holdsb_expose _ _ _ _ Hbj). unfold z. destruct a; auto; cbn [bind]; destruct c as [|v [|v2 c]]; auto. }
    rewrite Ez in E1. cbn [bind] in E1. rewrite (holdsb_expose _ _ _ _ Hbj) in E1. cbn [bind] in E1.
    assert (E2 : W1 = ladd_upd W (if z then UNop else UData a i c)) by (destruct z; cbn [bind] in E1; congruence).
    rewrite Em, E2. cbn [ladd_upd l_us]. rewrite <- app_assoc, nth_error_app2 by (unfold u; lia). unfold u. now rewrite Nat.sub_diag. }
  assert (Hz : z = true <-> c = [zero] /\ a <> ASet).
  { unfold z. destruct a.
    - split; [discriminate|intros [_ N]; congruence].
    - destruct c as [|v [|v2 c]]; split; try discriminate; try (intros [N _]; discriminate).
      + intros Ev. apply Heq in Ev. split; [congruence|discriminate].
      + intros [Ev _]. apply Heq. congruence.
    - destruct c as [|v [|v2 c]]; split; try discriminate; try (intros [N _]; discriminate).
      + intros Ev. apply Heq in Ev. split; [congruence|discriminate].
      + intros [Ev _]. apply Heq. congruence. }
  destruct (observe_inv W2 i s x HI2 Hi) as [t [p [k [Ha [Hb [Hk Hs]]]]]].
  cbn [lstep]. rewrite (rd_ok _ _ _ Eu). cbn [bind]. fold (asg_fun add sub a).
  assert (Lx : length x = n_elems (alloc_shape t)) by apply Hb.
  split; [|split].
  - intros Hl. destruct z.
    + cbn [run_updater]. exists W2. split; auto. split; [|intros k' _ _; auto]. rewrite Hi. do 3 f_equal.
      destruct (proj1 Hz eq_refl) as [-> Na]. cbn [length] in Hl. 
      assert (Ex : exists v, x = [v]).
      { destruct Hb as [_ [_ [_ D]]]. rewrite n_elems_prod in Lx by apply D. pose proof (prod_pos _ (proj2 D)). destruct x as [|v [|]]; cbn [length] in *; try lia. eauto. }
      destruct Ex as [v ->]. unfold zipw; cbn. destruct a; cbn; congruence.
    + cbn [run_updater]. rewrite (lookup_ok _ _ _ Ha). cbn [bind].
      rewrite (assign_vector_ok _ _ _ _ _ _ Hb) by lia. cbn [bind]. eexists. split; [reflexivity|].
      assert (Lz : length (zipw (asg_fun add sub a) x c) = length x) by (rewrite length_zipw; lia).
      pose proof (holdsb_put _ _ _ _ _ Hb Lz) as Hb'.
      assert (K : observe (lput W2 (hput (lheap W2) p (zipw (asg_fun add sub a) x c))) i = Ok (Some (s, zipw (asg_fun add sub a) x c))).
      { rewrite <- Hs. eapply (observe_holds (lput W2 _) i t p _ k); eauto. }
      pose proof (observe_frame_lput W2 i t p x _ HI2 Ha Hb Lz) as K2.
      destruct notify; (split; [exact K|exact K2]).
  - intros Hl Hc0. rewrite (proj2 Hz Hc0). reflexivity.
  - intros Hl Hc0. destruct z; [exfalso; tauto|]. cbn [run_updater]. rewrite (lookup_ok _ _ _ Ha). cbn [bind].
    unfold assign_vector. rewrite (holdsb_shape _ _ _ _ Hb), <- Lx. apply Nat.leb_gt in Hl. now rewrite Hl.
Qed.

(** An updater run on a variable that was never initialised stores the data but eval still
    returns nullptr. *)
Lemma C33_assign_to_uninitialized_refuted_lemma :
  exists (W : @lworld nat),
    lrun 0 0 Nat.add Nat.sub Nat.eqb linit [LConst [4; 5] [2]; LVar [2] None; LUpdater ASet 1 0; LRun 0 true] = Ok W /\
    (exists t p, alive (l_w W) 1 t /\ raw t = Some p /\ live (l_w W) p [4; 5]) /\ observe W 1 = Ok None.
Proof.
  let r := eval vm_compute in (lrun 0 0 Nat.add Nat.sub Nat.eqb linit [LConst [4; 5] [2]; LVar [2] None; LUpdater ASet 1 0; LRun 0 true]) in
  match r with Ok ?w => exists w end. split; [vm_compute; reflexivity|]. split; [|reflexivity].
  eexists _, _. repeat split.
Qed.

(** Nodes an operation does not write to look the same afterwards. *)
Lemma C33_other_nodes_unchanged_lemma :
  forall (T : Type) (zero junk : T) add sub eqb ops (W W' : lworld) o k,
    lrun zero junk add sub eqb linit ops = Ok W -> lstep zero junk add sub eqb W o = Ok W' ->
    k < length (l_fs W) -> ~ writes W o k -> observe W' k = observe W k.
Proof.
  intros T zero junk add sub eqb ops W W' o k Er E Hk Hn.
  destruct (lstep_post _ _ _ _ _ _ _ _ (reach_good _ _ _ _ _ _ _ Er) E) as [_ [_ [H _]]]. auto.
Qed.

(** A clone evaluates to what the original evaluates to and is unaffected by what is done
    to the original later (and the other way round), by the previous theorem. *)
Lemma C33_clone_lemma :
  forall (T : Type) (zero junk : T) add sub eqb ops (W : lworld) i s (d : list T),
    lrun zero junk add sub eqb linit ops = Ok W -> (is_place W i \/ is_var W i) -> observe W i = Ok (Some (s, d)) ->
    exists W', lstep zero junk add sub eqb W (LClone i) = Ok W' /\
      observe W' (length (l_fs W)) = Ok (Some (s, d)) /\ observe W' i = Ok (Some (s, d)).
Proof.
  intros T zero junk add sub eqb ops W i s d Er Hk Ho.
  pose proof (reach_good _ _ _ _ _ _ _ Er) as HG. pose proof HG as [HI HU].
  destruct (observe_inv W i s d HI Ho) as [t [p [k [Ha [Hb [Hf Hs]]]]]].
  assert (E : exists W', lstep zero junk add sub eqb W (LClone i) = Ok W' /\ observe W' (length (l_fs W)) = Ok (Some (s, d))).
  { cbn [lstep]. unfold lf. rewrite (rd_ok _ _ _ Hf), (lookup_ok _ _ _ Ha). cbn [bind l_kind l_init negb].
    destruct (t_copy_helper_ok junk (lheap W) blank t false (wf_blank _) (LInv_wf _ _ _ HI Ha)) as [h1 [t1 [Ec [L [H1 [H2 [H3 H4]]]]]]]; [discriminate|].
    rewrite Ec. cbn [bind fst snd].
    assert (X : exists W', Ok (lnew W h1 t1 k true) = Ok W' /\ observe W' (length (l_fs W)) = Ok (Some (s, d))).
    { eexists. split; [reflexivity|]. pose proof Hb as [R [Hp [Hl D]]].
      destruct (H3 (holdsb_alloc _ _ _ _ Hb) eq_refl p d R Hp) as [q [Rq Hq]].
      rewrite <- Hs, <- H1. eapply (observe_holds (lnew W h1 t1 k true) _ t1 q d k).
      - pose proof HI as [_ [HL _]]. unfold alive, lnew, TensorModel.add; cbn [l_w w_ts]. rewrite HL, nth_error_app2, Nat.sub_diag by lia. reflexivity.
      - split; auto. split; [exact Hq|]. rewrite H1. auto.
      - cbn [lnew l_fs]. rewrite nth_error_app2, Nat.sub_diag by lia. reflexivity. }
    destruct k; auto; exfalso; destruct Hk as [[b Hk]|[o [b Hk]]]; congruence. }
  destruct E as [W' [E Hn]]. exists W'. split; auto. split; auto. rewrite <- Ho.
  destruct (lstep_post _ _ _ _ _ _ _ _ HG E) as [_ [_ [H _]]]. apply H; [now apply nth_error_lt in Hf|]. cbn. auto.
Qed.

Lemma C33_nonvacuous_lemma :
  exists (W W2 : @lworld nat),
    lrun 0 0 Nat.add Nat.sub Nat.eqb linit
      [LPlace [0; 2]; LVar [2] (Some (fun k => 10 + k)); LInit 1; LConst [1; 2; 3] [3]; LTensor [2] [7; 8]] = Ok W /\
    is_place W 0 /\ shape_of W 0 [0; 2] /\ completes [0; 2] [2; 2] /\ n_elems [2; 2] = 4 /\
    observe W 1 = Ok (Some ([2], [10; 11])) /\
    lrun 0 0 Nat.add Nat.sub Nat.eqb W
      [LFeed 0 [1; 2; 3; 4]; LUpdater AAdd 1 2; LUpdater ASub 1 3; LUpdater AAdd 1 1; LRun 0 true; LRun 1 false; LRun 2 true] = Ok W2 /\
    observe W2 0 = Ok (Some ([2; 2], [1; 2; 3; 4])) /\ observe W2 1 = Ok (Some ([2], [8; 10])) /\ l_log W2 = [1; 0; 1; 1].
Proof.
  let r := eval vm_compute in (lrun 0 0 Nat.add Nat.sub Nat.eqb linit
      [LPlace [0; 2]; LVar [2] (Some (fun k => 10 + k)); LInit 1; LConst [1; 2; 3] [3]; LTensor [2] [7; 8]]) in
  match r with Ok ?w => exists w;
    let r2 := eval vm_compute in (lrun 0 0 Nat.add Nat.sub Nat.eqb w
      [LFeed 0 [1; 2; 3; 4]; LUpdater AAdd 1 2; LUpdater ASub 1 3; LUpdater AAdd 1 1; LRun 0 true; LRun 1 false; LRun 2 true]) in
    match r2 with Ok ?w2 => exists w2 end end.
  split; [vm_compute; reflexivity|]. split; [eexists; reflexivity|]. split; [eexists; split; reflexivity|].
  split. { split; [split; [discriminate|repeat constructor]|]. repeat (apply Forall2_cons; [lia|]). apply Forall2_nil. }
  split; [reflexivity|]. split; [vm_compute; reflexivity|]. split; [vm_compute; reflexivity|]. repeat split; vm_compute; reflexivity.
Qed.

(** ---- C34 ---- *)

(** constant(raw, shape), fully defined shape: raw, cut or padded with zeros to the number
    of elements. *)
Lemma C34_constant_defined_shape_lemma :
  forall (T : Type) (zero junk : T) add sub eqb ops (W : lworld) (d : list T) s,
    lrun zero junk add sub eqb linit ops = Ok W -> defined s ->
    exists W', lstep zero junk add sub eqb W (LConst d s) = Ok W' /\ is_const W' (length (l_fs W)) /\
      observe W' (length (l_fs W)) = Ok (Some (s, firstn (n_elems s) d ++ repeat zero (n_elems s - length d))).
Proof.
  intros T zero junk add sub eqb ops W d s Er D.
  destruct (reach_good _ _ _ _ _ _ _ Er) as [HI HU].
  destruct (const_vector_alloc zero junk (lheap W) d s (proj2 (is_fully_defined_iff s) D)) as [h1 [t1 [p [b [E [L [Hb [Hl Hs]]]]]]]].
  cbn [lstep]. rewrite E. cbn [bind fst snd]. eexists. split; [reflexivity|].
  split; [exists true; cbn [lnew l_fs]; rewrite nth_error_app2, Nat.sub_diag by lia; reflexivity|].
  destruct (new_leaf W h1 t1 p b _ KConst HI L Hb Hl) as [_ [H _]]. cbv zeta in H. rewrite H, Hs. reflexivity.
Qed.

(** constant(raw, shape), partially known shape: the unknown dimensions are completed so
    that all of raw fits, wasting less than one slice beyond what is needed. *)
Lemma C34_constant_partial_shape_lemma :
  forall (T : Type) (zero junk : T) add sub eqb ops (W : lworld) (d : list T) s,
    lrun zero junk add sub eqb linit ops = Ok W -> s <> [] -> ~ defined s ->
    exists W' s', lstep zero junk add sub eqb W (LConst d s) = Ok W' /\ is_const W' (length (l_fs W)) /\
      completes s s' /\ length d <= n_elems s' < Nat.max (length d) (n_known s) + n_known s /\
      observe W' (length (l_fs W)) = Ok (Some (s', d ++ repeat zero (n_elems s' - length d))).
Proof.
  intros T zero junk add sub eqb ops W d s Er Hne ND.
  destruct (reach_good _ _ _ _ _ _ _ Er) as [HI HU].
  assert (F : is_fully_defined s = false).
  { destruct (is_fully_defined s) eqn:F; auto. exfalso. apply ND. now apply is_fully_defined_iff. }
  destruct (const_vector_guess zero junk (lheap W) d s Hne F) as [s' [h1 [t1 [p [b [E [L [Hb [Hl [Hs [HC [H1 H2]]]]]]]]]]]].
  cbn [lstep]. rewrite E. cbn [bind fst snd]. eexists _, s'. split; [reflexivity|].
  split; [exists true; cbn [lnew l_fs]; rewrite nth_error_app2, Nat.sub_diag by lia; reflexivity|].
  split; auto. split; auto.
  destruct (new_leaf W h1 t1 p b _ KConst HI L Hb Hl) as [_ [H _]]. cbv zeta in H. rewrite H, Hs.
  unfold padded. rewrite firstn_all2 by auto. reflexivity.
Qed.

(** an undefined shape: the shape guess writes outside an empty vector *)
Lemma C34_constant_undefined_shape_refuted_lemma :
  forall (T : Type) (zero junk : T) add sub eqb (W : lworld) (d : list T),
    lstep zero junk add sub eqb W (LConst d []) = UB.
Proof. intros. reflexivity. Qed.

Lemma C34_scalar_constant_lemma :
  forall (T : Type) (zero junk : T) add sub eqb ops (W : lworld) (v : T),
    lrun zero junk add sub eqb linit ops = Ok W ->
    exists W', lstep zero junk add sub eqb W (LConstScalar v) = Ok W' /\ is_const W' (length (l_fs W)) /\
      observe W' (length (l_fs W)) = Ok (Some ([1], [v])).
Proof.
  intros T zero junk add sub eqb ops W v Er.
  destruct (reach_good _ _ _ _ _ _ _ Er) as [HI HU].
  destruct (const_scalar_ok zero junk (lheap W) v) as [h1 [t1 [p [b [E [L [Hb [Hl Hs]]]]]]]].
  cbn [lstep]. rewrite E. cbn [bind fst snd]. eexists. split; [reflexivity|].
  split; [exists true; cbn [lnew l_fs]; rewrite nth_error_app2, Nat.sub_diag by lia; reflexivity|].
  destruct (new_leaf W h1 t1 p b _ KConst HI L Hb Hl) as [_ [H _]]. cbv zeta in H. rewrite H, Hs. reflexivity.
Qed.

(** A constant keeps its value for ever. *)
Lemma C34_constants_never_change_lemma :
  forall (T : Type) (zero junk : T) add sub eqb ops ops2 (W W2 : lworld) k,
    lrun zero junk add sub eqb linit ops = Ok W -> is_const W k -> lrun zero junk add sub eqb W ops2 = Ok W2 ->
    is_const W2 k /\ observe W2 k = observe W k.
Proof.
  intros T zero junk add sub eqb ops ops2 W W2 k Er Hc E. eapply const_forever; eauto. eapply reach_good; eauto.
Qed.

(** operator==(constant, scalar): one element, equal to the scalar. *)
Lemma C34_equals_scalar_lemma :
  forall (T : Type) (zero junk : T) add sub eqb ops (W : lworld) k t s (d : list T) v,
    (forall u v, eqb u v = true <-> u = v) ->
    lrun zero junk add sub eqb linit ops = Ok W -> observe W k = Ok (Some (s, d)) -> alive (l_w W) k t ->
    exists r, const_eqb eqb (lheap W) t v = Ok r /\ (r = true <-> d = [v]).
Proof.
  intros T zero junk add sub eqb ops W k t s d v Heq Er Ho Ha.
  destruct (reach_good _ _ _ _ _ _ _ Er) as [HI HU].
  destruct (observe_inv W k s d HI Ho) as [t' [p [k' [Ha' [Hb _]]]]]. unfold alive in *. rewrite Ha in Ha'. injection Ha' as <-.
  unfold const_eqb. rewrite (holdsb_expose _ _ _ _ Hb). cbn [bind].
  destruct d as [|x [|y d]]; eexists; (split; [reflexivity|]); split; try discriminate.
  - intros E. apply Heq in E. congruence.
  - intros E. apply Heq. congruence.
Qed.

Lemma const_axis_data_at {T} (zero scalar : T) dimension index s : defined s -> dimension < length s ->
  exists data, const_axis_data zero dimension index scalar s = Ok data /\ length data = n_elems s /\
    forall k, k < n_elems s -> nth_error data k = Some (if nth dimension (coords s k) 0 =? index then scalar else zero).
Proof.
  intros D Hd. pose proof D as [D1 D2].
  unfold const_axis_data. rewrite iterate_for by auto. rewrite <- n_elems_prod by auto.
    match goal with |- context [for_ ?n ?body ?st] => destruct (for_inv (fun i d => length d = n_elems s /\
      (forall k, k < i -> nth_error d k = Some (if nth dimension (coords s k) 0 =? index then scalar else zero)) /\
      (forall k, i <= k < n_elems s -> nth_error d k = Some zero)) body n st) as [data [E [L [H _]]]] end.
    - split; [apply repeat_length|]. split; [intros; lia|]. intros k Hk. apply nth_error_repeat. lia.
    - intros j d Hj [L [H1 H2]].
      destruct (rd_lt (coords s j) dimension) as [x [Hx Ex]]. { rewrite coords_length. auto. }
      rewrite Ex. cbn [bind]. rewrite <- (nth_error_nth _ _ 0 Hx). destruct (nth dimension (coords s j) 0 =? index) eqn:Eq.
      + rewrite wr_ok by lia. eexists. split; [reflexivity|]. split; [now rewrite length_set_nth|]. split.
        * intros k Hk. destruct (Nat.eq_dec j k) as [->|]; [rewrite nth_error_set_nth_eq by lia; now rewrite Eq|].
          rewrite nth_error_set_nth_neq by auto. apply H1. lia.
        * intros k Hk. rewrite nth_error_set_nth_neq by lia. apply H2; lia.
      + eexists. split; [reflexivity|]. split; auto. split.
        * intros k Hk. destruct (Nat.eq_dec j k) as [->|]; [rewrite Eq; apply H2; lia|]. apply H1; lia.
        * intros k Hk. apply H2; lia.
    - exists data. auto. 
Qed.
Lemma const_axis_data_ok {T} (zero scalar : T) dimension index s : defined s -> dimension < length s ->
  exists data, const_axis_data zero dimension index scalar s = Ok data /\ length data = n_elems s /\
    forall c, in_bounds s c -> nth_error data (offset s c) = Some (if nth dimension c 0 =? index then scalar else zero).
Proof.
  intros D Hd. destruct (const_axis_data_at zero scalar dimension index s D Hd) as (d & E & L & H). exists d. split; [exact E|]. split; [exact L|].
  intros c Hc. pose proof D as [D1 D2]. assert (Hk : offset s c < n_elems s) by (rewrite n_elems_prod by auto; now apply offset_lt).
  rewrite H by auto. now rewrite coords_offset.
Qed.

(** const_axis: the scalar exactly on the slice, zero elsewhere, in the given shape. *)
Lemma C34_const_axis_lemma :
  forall (T : Type) (zero junk scalar : T) (h : heap T) dimension index s,
    defined s -> dimension < length s ->
    exists h' t d, const_axis zero junk h dimension index scalar s = Ok (h', t) /\
      get_shape t = s /\ t_expose h' t = Ok d /\ length d = n_elems s /\
      (forall c, in_bounds s c -> nth_error d (offset s c) = Some (if nth dimension c 0 =? index then scalar else zero)).
Proof.
  intros T zero junk scalar h dimension index s D Hd. pose proof D as [D1 D2].
  pose proof (const_axis_data_at zero scalar dimension index s D Hd) as E.
  destruct E as [data [E [L H]]]. unfold const_axis. rewrite E. cbn [bind].
  destruct (const_vector_alloc zero junk h data s (proj2 (is_fully_defined_iff s) D)) as [h1 [t1 [p [b [Ec [Lc [Hb [Hl Hs]]]]]]]].
  rewrite Ec. eexists _, _, _. split; [reflexivity|].
  pose proof (holdsb_put _ _ _ _ _ Hb Hl) as Hb'.
  split; [rewrite (holdsb_shape _ _ _ _ Hb'); auto|]. split; [apply (holdsb_expose _ _ _ _ Hb')|].
  rewrite length_padded. split; auto. intros c Hc.
  assert (Hk : offset s c < n_elems s) by (rewrite n_elems_prod by auto; now apply offset_lt).
  assert (Ep : padded zero (n_elems s) data = data).
  { unfold padded. rewrite L, Nat.sub_diag, <- L, firstn_all. cbn. apply app_nil_r. }
  rewrite Ep, H by auto. now rewrite coords_offset.
Qed.

(** an axis the shape does not have: the coordinate vector is read out of bounds *)
Lemma C34_const_axis_bad_dimension_refuted_lemma :
  forall (T : Type) (zero junk scalar : T) (h : heap T) dimension index s,
    defined s -> length s <= dimension -> const_axis zero junk h dimension index scalar s = UB.
Proof.
  intros T zero junk scalar h dimension index s D Hd. unfold const_axis, const_axis_data. pose proof D as [D1 D2].
  rewrite iterate_for by auto. rewrite <- n_elems_prod by auto.
  assert (Hn : 0 < n_elems s) by (rewrite n_elems_prod by auto; now apply prod_pos).
  destruct (n_elems s) as [|n]; [lia|]. unfold for_; cbn [forloop].
  assert (Er : rd (coords s 0) dimension = UB).
  { unfold rd. rewrite (proj2 (nth_error_None _ _)); auto. rewrite coords_length. auto. }
  rewrite Er. reflexivity.
Qed.

Lemma C34_nonvacuous_lemma :
  exists (W : @lworld nat),
    lrun 0 0 Nat.add Nat.sub Nat.eqb linit [LConst [1; 2; 3] [2; 0]; LConst [1; 2; 3] [2]; LConst [1] [3]] = Ok W /\
    observe W 0 = Ok (Some ([2; 2], [1; 2; 3; 0])) /\ observe W 1 = Ok (Some ([2], [1; 2])) /\
    observe W 2 = Ok (Some ([3], [1; 0; 0])) /\
    const_axis_data 0 1 1 9 [2; 2] = Ok [0; 0; 9; 9].
Proof.
  let r := eval vm_compute in (lrun 0 0 Nat.add Nat.sub Nat.eqb linit [LConst [1; 2; 3] [2; 0]; LConst [1; 2; 3] [2]; LConst [1] [3]]) in
  match r with Ok ?w => exists w end. repeat split; vm_compute; reflexivity.
Qed.
