(** Laws of moving and assigning placeholders and variables: C70. *)
From Coq Require Import Lia.
From Verif Require Import Common ShapeModel ShapeSpec ShapeProofs FitModel TensorModel TensorSpec TensorProofs TensorDataLaws LeafModel LeafSpec LeafProofs LeafLaws LeafMoveModel LeafMoveSpec.

Section P.
Context {T : Type} (zero junk : T) (add sub : T -> T -> T) (eqb : T -> T -> bool).
Implicit Types W : @lworld T.
Implicit Types M : @mworld T.
Notation mstep := (mstep zero junk add sub eqb).
Notation mrun := (mrun zero junk add sub eqb).

Definition MGood M : Prop := Good (m_w M) /\ (forall i, m_gone M i = true -> i < next M).

Lemma set_nth_twice {A} (l : list A) i x y : set_nth i x (set_nth i y l) = set_nth i x l.
Proof. revert i. induction l as [|z l IH]; intros [|i]; simpl; auto. now f_equal. Qed.
Lemma set_nth_app_l {A} (l : list A) i x y : i < length l -> set_nth i x (l ++ [y]) = set_nth i x l ++ [y].
Proof. revert i. induction l as [|z l IH]; intros [|i] H; simpl in *; try lia; auto. f_equal. apply IH. lia. Qed.
Lemma set_nth_app_last {A} (l : list A) x y : set_nth (length l) x (l ++ [y]) = l ++ [x].
Proof. induction l as [|z l IH]; simpl; auto. now f_equal. Qed.

Lemma transfer_ok W i j ti tj ki kj bi bj fi fj :
  Good W -> alive (l_w W) i ti -> raw ti = None -> alive (l_w W) j tj -> i <> j ->
  nth_error (l_fs W) i = Some fi -> nth_error (l_fs W) j = Some fj -> tag ki = tag (l_kind fi) -> tag kj = tag (l_kind fj) ->
  Good (lset (lset W (lheap W) i tj ki bi) (lheap W) j blank kj bj) /\
  (forall k, k <> i -> k <> j -> observe (lset (lset W (lheap W) i tj ki bi) (lheap W) j blank kj bj) k = observe W k).
Proof.
  intros [HI HU] Hi Hr Hj Hne Fi Fj Ti Tj. set (W' := lset _ _ _ _ _ _). pose proof HI as [HV [HL [HA HE]]].
  assert (Li : i < length (w_ts (l_w W))) by (unfold alive in Hi; now apply nth_error_lt in Hi).
  assert (Lj : j < length (w_ts (l_w W))) by (unfold alive in Hj; now apply nth_error_lt in Hj).
  assert (Ew : l_w W' = mkW (w_heap (l_w W)) (set_nth j (Some blank) (set_nth i (Some tj) (w_ts (l_w W))))) by reflexivity.
  assert (Inv' : Inv (l_w W')). { rewrite Ew. destruct tj as [r a al]. apply (Inv_transfer (l_w W) i j ti (mkT r a al) [] []); auto. }
  assert (Ai : alive (l_w W') i tj). { unfold alive. rewrite Ew. cbn [w_ts]. rewrite nth_error_set_nth_neq by auto. now apply nth_error_set_nth_eq. }
  assert (Aj : alive (l_w W') j blank). { unfold alive. rewrite Ew. cbn [w_ts]. apply nth_error_set_nth_eq. now rewrite length_set_nth. }
  assert (Ak : forall k, k <> i -> k <> j -> nth_error (w_ts (l_w W')) k = nth_error (w_ts (l_w W)) k).
  { intros k Hki Hkj. rewrite Ew. cbn [w_ts]. now rewrite !nth_error_set_nth_neq by auto. }
  assert (HI' : LInv W').
  { split; auto. split; [unfold W', lset, put; cbn [l_w l_fs w_ts]; rewrite !length_set_nth; auto|]. split.
    - intros k Hk. destruct (Nat.eq_dec k i) as [->|]; [eauto|]. destruct (Nat.eq_dec k j) as [->|]; [eauto|].
      unfold alive. rewrite Ak by auto. apply HA. unfold W', lset in Hk; cbn [l_fs] in Hk. now rewrite !length_set_nth in Hk.
    - intros k tk Hk. destruct (Nat.eq_dec k i) as [->|].
      + unfold alive in *. rewrite Ai in Hk. injection Hk as <-. apply (HE j). exact Hj.
      + destruct (Nat.eq_dec k j) as [->|].
        * unfold alive in *. rewrite Aj in Hk. injection Hk as <-. auto.
        * unfold alive in Hk. rewrite Ak in Hk by auto. now apply (HE k). }
  assert (Et : tags W' = tags W).
  { unfold W'. rewrite (tags_lset _ _ _ _ _ _ fj), (tags_lset _ _ _ _ _ _ fi); auto.
    cbn [lset l_fs]. rewrite nth_error_set_nth_neq by auto. auto. }
  split; [split; [exact HI'|eapply UInv_same; eauto]|].
  intros k Hki Hkj. unfold observe, leaf_eval, lf.
  assert (Ef : rd (l_fs W') k = rd (l_fs W) k). { unfold rd, W', lset; cbn [l_fs]. now rewrite !nth_error_set_nth_neq by auto. }
  assert (Elk : lookup (l_w W') k = lookup (l_w W) k). { unfold lookup. now rewrite Ak by auto. }
  rewrite Ef, Elk. reflexivity.
Qed.

Lemma copy_alloc h tj so h1 t1 : (is_alloc tj = false -> alloc_shape tj = []) -> t_copy_helper junk h blank tj so = Ok (h1, t1) -> alloc_shape t1 = alloc_shape tj -> (raw t1 = None -> alloc_shape t1 = []).
Proof.
  intros He Ec H1 R. destruct (is_alloc tj) eqn:A; [|rewrite H1; auto].
  exfalso. unfold t_copy_helper in Ec. rewrite A in Ec. cbn [hfree raw blank bind halloc] in Ec.
  destruct so; [injection Ec as <- <-; discriminate|].
  destruct (raw tj) as [po|]; [|discriminate].
  destruct (hget (h ++ _) po) as [sb| | |]; try discriminate. cbn [bind] in Ec.
  destruct (hget (h ++ _) (length h)) as [db| | |]; try discriminate. cbn [bind] in Ec.
  destruct (memcpy db 0 sb 0 _) as [m| | |]; try discriminate. cbn [bind] in Ec. injection Ec as <- <-. discriminate.
Qed.

Lemma copy_free h ti tj so h1 : hfree h (raw ti) = Ok h1 -> t_copy_helper junk h ti tj so = t_copy_helper junk h1 blank tj so.
Proof. intros E. unfold t_copy_helper. rewrite E. reflexivity. Qed.

Lemma lookup_some W i f : LInv W -> nth_error (l_fs W) i = Some f -> exists t, alive (l_w W) i t.
Proof. apply LInv_alive. Qed.

(** ---- what each operation does ---- *)
Lemma mobs_old M i : m_gone M i = false -> mobserve M i = observe (m_w M) i.
Proof. intros E. unfold mobserve, mleaf_eval. rewrite E. reflexivity. Qed.
Lemma mobs_gone M i f : m_gone M i = true -> nth_error (l_fs (m_w M)) i = Some f -> mobserve M i = Ok None.
Proof. intros E F. unfold mobserve, mleaf_eval, lf. rewrite E, (rd_ok _ _ _ F). reflexivity. Qed.

(** equal observation from equal ingredients *)
Lemma looks_ingredients M' i M j f t :
  nth_error (l_fs (m_w M')) i = Some f -> nth_error (l_fs (m_w M)) j = Some f -> m_gone M' i = m_gone M j ->
  (m_gone M j = false -> alive (l_w (m_w M')) i t /\ alive (l_w (m_w M)) j t /\ t_expose (lheap (m_w M')) t = t_expose (lheap (m_w M)) t) ->
  looks_like M' i M j.
Proof.
  intros F' F G H. unfold looks_like, mobserve, mleaf_eval, mget_shape, good_status, mkind, has_kind, lf, leaf_eval, lf. rewrite G, (rd_ok _ _ _ F'), (rd_ok _ _ _ F).
  split; [|split; [|split; [reflexivity|rewrite F', F; tauto]]]; destruct (m_gone M j); auto; destruct (H eq_refl) as (A' & A & E); cbn [bind]; rewrite (lookup_ok _ _ _ A'), (lookup_ok _ _ _ A); cbn [bind]; auto.
  destruct (l_init f); auto. now rewrite E.
Qed.

Lemma same_class_tag (a b : @kind T) : same_class a b = true -> tag a = tag b /\ tag (moved_kind b) = tag b.
Proof. destruct a, b; cbn; try discriminate; auto. Qed.

Definition husk M i k : Prop :=
  mobserve M i = Ok None /\ mget_shape M i = Ok [] /\ mkind M i (moved_kind k).
Lemma husk_ok M i k b : m_gone M i = true -> nth_error (l_fs (m_w M)) i = Some (mkLeaf (moved_kind k) b) -> husk M i k /\ good_status M i = Ok b.
Proof.
  intros G F. split.
  - split; [eapply mobs_gone; eauto|]. split; [unfold mget_shape, lf; now rewrite G, (rd_ok _ _ _ F)|exists b; exact F].
  - unfold good_status, lf. now rewrite (rd_ok _ _ _ F).
Qed.

Lemma move_ok M i k b : MGood M -> nth_error (l_fs (m_w M)) i = Some (mkLeaf k b) -> movable k = true ->
  exists M', mstep M (MMove i) = Ok M' /\ MGood M' /\ looks_like M' (next M) M i /\ m_gone M' i = true /\
    nth_error (l_fs (m_w M')) i = Some (mkLeaf (moved_kind k) b) /\ next M' = S (next M) /\
    (forall x, x <> i -> x < next M -> mobserve M' x = mobserve M x) /\ l_log (m_w M') = l_log (m_w M) /\ l_us (m_w M') = l_us (m_w M).
Proof.
  intros [HG HB] F Hk. pose proof HG as [HI HU]. pose proof HI as [_ [HL _]]. set (W := m_w M) in *.
  destruct (LInv_alive W i _ HI F) as [t Ha]. assert (Hi : i < length (l_fs W)) by now apply nth_error_lt in F.
  set (h := lheap W). set (n := length (l_fs W)).
  assert (L0 : local (lheap W) blank h blank) by (apply local_refl, wf_blank).
  set (W0 := lnew W h blank k b).
  assert (G0 : Good W0 /\ forall x, x < n -> observe W0 x = observe W x).
  { split; [split; [now apply LInv_lnew|]|].
    - eapply (UInv_app W); eauto. unfold tags, W0, lnew; cbn [l_fs]. now rewrite map_app.
    - intros x Hx. now apply observe_frame_lnew. }
  destruct G0 as [G0 O0].
  assert (N0 : alive (l_w W0) n blank). { unfold alive, W0, lnew, TensorModel.add; cbn [l_w w_ts]. unfold n. rewrite HL, nth_error_app2, Nat.sub_diag by lia. reflexivity. }
  assert (A0 : alive (l_w W0) i t). { unfold W0, lnew; cbn [l_w]. now apply frame_add. }
  assert (F0 : nth_error (l_fs W0) n = Some (mkLeaf k b)). { unfold W0, lnew; cbn [l_fs]. rewrite nth_error_app2, Nat.sub_diag by (unfold n; lia). reflexivity. }
  assert (F0i : nth_error (l_fs W0) i = Some (mkLeaf k b)). { unfold W0, lnew; cbn [l_fs]. now rewrite nth_error_app1. }
  assert (Tk : tag (moved_kind k) = tag k) by (destruct k; reflexivity).
  destruct (transfer_ok W0 n i blank t k (moved_kind k) b b _ _ G0 N0 eq_refl A0 ltac:(unfold n; lia) F0 F0i eq_refl Tk) as [G1 O1].
  set (W1 := lset W h i blank (moved_kind k) b).
  assert (Eq : lset (lset W0 (lheap W0) n t k b) (lheap W0) i blank (moved_kind k) b = lnew W1 (lheap W1) t k b).
  { unfold W0, W1, lset, lnew, put, TensorModel.add, lheap; cbn [l_w l_fs l_us l_log w_ts w_heap]. unfold h, lheap, n. f_equal.
    - f_equal. rewrite HL at 1. rewrite set_nth_app_last, set_nth_app_l by lia. reflexivity.
    - rewrite set_nth_app_last, set_nth_app_l by lia. reflexivity. }
  rewrite Eq in G1, O1. set (W2 := lnew W1 (lheap W1) t k b) in *.
  set (M' := mkM W2 (mark (mark (m_gone M) n (m_gone M i)) i true)).
  exists M'. split; [cbn [LeafMoveModel.mstep]; unfold lf; fold W; rewrite (rd_ok _ _ _ F), (lookup_ok _ _ _ Ha); cbn [bind l_kind l_init]; rewrite Hk; reflexivity|].
  assert (Fi : nth_error (l_fs W2) i = Some (mkLeaf (moved_kind k) b)).
  { unfold W2, W1, lnew, lset; cbn [l_fs]. rewrite nth_error_app1 by (rewrite length_set_nth; lia). now apply nth_error_set_nth_eq. }
  assert (Fn : nth_error (l_fs W2) n = Some (mkLeaf k b)).
  { unfold W2, W1, lnew, lset; cbn [l_fs]. rewrite nth_error_app2 by (rewrite length_set_nth; unfold n; lia). rewrite length_set_nth. unfold n. now rewrite Nat.sub_diag. }
  assert (Ln : length (l_fs W2) = S n). { unfold W2, W1, lnew, lset; cbn [l_fs]. rewrite app_length, length_set_nth. cbn. unfold n. lia. }
  split.
  { split; [exact G1|]. intros x Hx. unfold next; cbn [m_w M']. rewrite Ln. unfold M', mark in Hx; cbn [m_gone] in Hx.
    destruct (Nat.eqb_spec x i); [unfold n; lia|]. destruct (Nat.eqb_spec x n); [lia|]. apply HB in Hx. unfold next in Hx. fold W in Hx. fold n in Hx. lia. }
  split.
  { apply (looks_ingredients _ _ _ _ (mkLeaf k b) t); auto.
    - unfold M', mark; cbn [m_gone]. unfold next. fold W. fold n. destruct (Nat.eqb_spec n i); [unfold n in *; lia|]. now rewrite Nat.eqb_refl.
    - intros _. split; [|split; [exact Ha|reflexivity]]. unfold alive, M', W2, W1, lnew, lset, put, TensorModel.add, next; cbn [m_w l_w w_ts]. fold W. rewrite nth_error_app2 by (rewrite length_set_nth; lia).
      rewrite length_set_nth, HL, Nat.sub_diag. reflexivity. }
  split; [unfold M', mark; cbn [m_gone]; now rewrite Nat.eqb_refl|]. split; [exact Fi|]. split; [exact Ln|]. split; [|split; reflexivity].
  intros x Hx Hl. unfold next in Hl. fold W n in Hl.
  assert (Gx : m_gone M' x = m_gone M x). { unfold M', mark; cbn [m_gone]. destruct (Nat.eqb_spec x i); [lia|]. destruct (Nat.eqb_spec x n); [lia|reflexivity]. }
  destruct (m_gone M x) eqn:E.
  - destruct (nth_error (l_fs W) x) as [f|] eqn:Fx; [|apply nth_error_None in Fx; unfold n in *; lia].
    rewrite (mobs_gone M x f E Fx). eapply (mobs_gone M' x f Gx). cbn [m_w M']. unfold W2, W1, lnew, lset; cbn [l_fs]. rewrite nth_error_app1 by (rewrite length_set_nth; unfold n in *; lia). now rewrite nth_error_set_nth_neq by auto.
  - rewrite (mobs_old M' x Gx), (mobs_old M x E). cbn [m_w M']. rewrite O1 by lia. now apply O0.
Qed.

Lemma move_assign_ok M i j ki bi kj bj : MGood M -> nth_error (l_fs (m_w M)) i = Some (mkLeaf ki bi) -> nth_error (l_fs (m_w M)) j = Some (mkLeaf kj bj) ->
  same_class ki kj = true -> i <> j ->
  exists M', mstep M (MMoveAssign i j) = Ok M' /\ MGood M' /\ looks_like M' i M j /\ m_gone M' j = true /\
    nth_error (l_fs (m_w M')) j = Some (mkLeaf (moved_kind kj) bj) /\ next M' = next M /\
    (forall x, x <> i -> x <> j -> x < next M -> mobserve M' x = mobserve M x) /\ l_log (m_w M') = l_log (m_w M) ++ [i; i] /\ l_us (m_w M') = l_us (m_w M).
Proof.
  intros [HG HB] Fi Fj Hk Hne. pose proof HG as [HI HU]. pose proof HI as [HV [HL _]]. set (W := m_w M) in *.
  destruct (same_class_tag _ _ Hk) as [Tk Tm].
  destruct (LInv_alive W i _ HI Fi) as [ti Hi]. destruct (LInv_alive W j _ HI Fj) as [tj Hj].
  assert (Li : i < length (l_fs W)) by now apply nth_error_lt in Fi. assert (Lj : j < length (l_fs W)) by now apply nth_error_lt in Fj.
  destruct (local_free (lheap W) ti [] [] (LInv_wf _ _ _ HI Hi)) as [h1 [E L]].
  set (W0 := lset W h1 i blank kj bj).
  assert (G0 : Good W0).
  { split; [eapply (LInv_lset W h1 i ti blank); eauto|]. eapply (UInv_same W); eauto. eapply tags_lset; eauto. }
  assert (N0 : alive (l_w W0) i blank) by (eapply alive_lset; eauto).
  assert (A0 : alive (l_w W0) j tj) by (unfold W0, lset; cbn [l_w]; apply frame_put; auto).
  assert (F0i : nth_error (l_fs W0) i = Some (mkLeaf kj bj)) by (apply fs_lset; auto).
  assert (F0j : nth_error (l_fs W0) j = Some (mkLeaf kj bj)) by (unfold W0, lset; cbn [l_fs]; now rewrite nth_error_set_nth_neq by auto).
  destruct (transfer_ok W0 i j blank tj kj (moved_kind kj) bj bj _ _ G0 N0 eq_refl A0 Hne F0i F0j eq_refl Tm) as [G1 O1].
  set (W2 := lset (lset W h1 i tj kj bj) h1 j blank (moved_kind kj) bj).
  assert (Eq : lset (lset W0 (lheap W0) i tj kj bj) (lheap W0) j blank (moved_kind kj) bj = W2).
  { unfold W0, W2, lset, put, lheap; cbn [l_w l_fs l_us l_log w_ts w_heap]. now rewrite !set_nth_twice. }
  rewrite Eq in G1, O1.
  set (M' := mkM (lnotify (lnotify W2 i) i) (mark (mark (m_gone M) i (m_gone M j)) j true)).
  exists M'. split.
  { cbn [LeafMoveModel.mstep]. unfold lf. fold W. rewrite (rd_ok _ _ _ Fi), (rd_ok _ _ _ Fj), (lookup_ok _ _ _ Hi), (lookup_ok _ _ _ Hj). cbn [bind l_kind l_init]. rewrite Hk.
    destruct (Nat.eqb_spec i j); [contradiction|]. rewrite E. reflexivity. }
  assert (Ln : length (l_fs W2) = length (l_fs W)) by (unfold W2, lset; cbn [l_fs]; now rewrite !length_set_nth).
  split.
  { split; [exact G1|]. intros x Hx. unfold next; cbn [m_w M' lnotify l_fs]. rewrite Ln. unfold M', mark in Hx; cbn [m_gone] in Hx.
    destruct (Nat.eqb_spec x j); [lia|]. destruct (Nat.eqb_spec x i); [lia|]. now apply HB in Hx. }
  split.
  { apply (looks_ingredients _ _ _ _ (mkLeaf kj bj) tj).
    - unfold M', W2, lset, lnotify; cbn [m_w l_fs]. rewrite nth_error_set_nth_neq by auto. now apply nth_error_set_nth_eq.
    - exact Fj.
    - unfold M', mark; cbn [m_gone]. destruct (Nat.eqb_spec i j); [contradiction|]. now rewrite Nat.eqb_refl.
    - intros _. split; [|split; [exact Hj|]].
      + unfold alive, M', W2, lset, lnotify, put; cbn [m_w l_w w_ts]. rewrite nth_error_set_nth_neq by auto. apply nth_error_set_nth_eq. lia.
      + change (lheap (m_w M')) with h1. fold W. apply (expose_frame W ti h1 blank j tj HI Hj L). intros p Hp. apply (Inv_raw_neq (l_w W) i j ti tj p); auto. }
  split; [unfold M', mark; cbn [m_gone]; now rewrite Nat.eqb_refl|].
  split; [unfold M', W2, lset, lnotify; cbn [m_w l_fs]; apply nth_error_set_nth_eq; rewrite length_set_nth; lia|].
  split; [exact Ln|]. split; [|split; [cbn [m_w M' lnotify l_log]; unfold W2, lset; cbn [l_log]; now rewrite <- app_assoc|reflexivity]].
  intros x Hxi Hxj Hl. unfold next in Hl. fold W in Hl.
  assert (Gx : m_gone M' x = m_gone M x). { unfold M', mark; cbn [m_gone]. destruct (Nat.eqb_spec x j); [lia|]. destruct (Nat.eqb_spec x i); [lia|reflexivity]. }
  destruct (m_gone M x) eqn:Eg.
  - destruct (nth_error (l_fs W) x) as [f|] eqn:Fx; [|apply nth_error_None in Fx; lia].
    rewrite (mobs_gone M x f Eg Fx). eapply (mobs_gone M' x f Gx). change (nth_error (l_fs W2) x = Some f). unfold W2, lset; cbn [l_fs]. now rewrite !nth_error_set_nth_neq by auto.
  - rewrite (mobs_old M' x Gx), (mobs_old M x Eg). change (observe (m_w M') x) with (observe W2 x). rewrite O1 by auto. eapply observe_frame_lset; eauto.
Qed.

Lemma copy_same_shape h tj so h1 t1 : t_copy_helper junk h blank tj so = Ok (h1, t1) -> get_shape t1 = get_shape tj /\ is_alloc t1 = is_alloc tj.
Proof.
  unfold t_copy_helper. cbn [hfree raw blank bind halloc]. destruct (is_alloc tj) eqn:A.
  - assert (X : forall q, get_shape (mkT (Some q) (alloc_shape tj) (allowed_shape tj)) = get_shape tj /\ is_alloc (mkT (Some q) (alloc_shape tj) (allowed_shape tj)) = true).
    { intros q. assert (Y : is_alloc (mkT (Some q) (alloc_shape tj) (allowed_shape tj)) = true).
      { unfold is_alloc in *. cbn [alloc_shape raw]. apply andb_true_iff in A. now rewrite (proj1 A). }
      split; [|exact Y]. unfold get_shape. now rewrite A, Y. }
    destruct so; [intros [= <- <-]; apply X|].
    destruct (raw tj) as [po|]; [|discriminate].
    destruct (hget (h ++ _) po) as [sb| | |]; try discriminate. cbn [bind].
    destruct (hget (h ++ _) (length h)) as [db| | |]; try discriminate. cbn [bind].
    destruct (memcpy db 0 sb 0 _) as [m| | |]; try discriminate. cbn [bind]. intros [= <- <-]. apply X.
  - intros [= <- <-]. assert (Y : is_alloc (mkT None (alloc_shape tj) (allowed_shape tj)) = false) by (unfold is_alloc; cbn [raw]; apply andb_false_r).
    split; [|exact Y]. unfold get_shape. now rewrite A, Y.
Qed.

Lemma copy_expose h0 h ti tj h1 t1 W : LInv W -> h0 = lheap W -> wf h0 tj -> t_copy_helper junk h0 ti tj false = Ok (h1, t1) ->
  (forall po b, raw tj = Some po -> is_alloc tj = true -> nth_error h0 po = Some (Some b) -> exists q, raw t1 = Some q /\ nth_error h1 q = Some (Some b)) ->
  is_alloc t1 = is_alloc tj -> alloc_shape t1 = alloc_shape tj -> h = h1 -> t_expose h t1 = t_expose h0 tj.
Proof.
  intros HI -> Hw Ec Hc Ha Hs ->. unfold t_expose, t_n_elems. rewrite Ha. destruct (is_alloc tj) eqn:A; auto. cbn [assert_ bind].
  destruct (raw tj) as [po|] eqn:R; [|unfold is_alloc in A; rewrite R, andb_false_r in A; discriminate].
  destruct (Hw po R) as (b & Hb & _). destruct (Hc po b eq_refl eq_refl Hb) as (q & Rq & Hq). rewrite Rq. unfold hget. rewrite Hb, Hq, Hs. reflexivity.
Qed.

Lemma copy_assign_ok M i j ki bi kj bj : MGood M -> nth_error (l_fs (m_w M)) i = Some (mkLeaf ki bi) -> nth_error (l_fs (m_w M)) j = Some (mkLeaf kj bj) ->
  same_class ki kj = true -> i <> j ->
  exists M', mstep M (MCopyAssign i j) = Ok M' /\ MGood M' /\ looks_like M' i M j /\ next M' = next M /\
    (forall x, x <> i -> x < next M -> looks_like M' x M x) /\ l_log (m_w M') = l_log (m_w M) ++ [i; i] /\ l_us (m_w M') = l_us (m_w M).
Proof.
  intros [HG HB] Fi Fj Hk Hne. pose proof HG as [HI HU]. pose proof HI as [HV [HL [HA HE]]]. set (W := m_w M) in *.
  destruct (same_class_tag _ _ Hk) as [Tk Tm].
  destruct (LInv_alive W i _ HI Fi) as [ti Hi]. destruct (LInv_alive W j _ HI Fj) as [tj Hj].
  assert (Li : i < length (l_fs W)) by now apply nth_error_lt in Fi. assert (Lj : j < length (l_fs W)) by now apply nth_error_lt in Fj.
  assert (NE : forall p, raw ti = Some p -> raw tj <> Some p) by (intros p; apply (Inv_raw_neq (l_w W) i j ti tj p); auto).
  destruct (local_free (lheap W) ti [] [] (LInv_wf _ _ _ HI Hi)) as [h1 [E L]].
  assert (X : exists h2 t2, (if m_gone M j then Ok (h1, blank) else t_copy_helper junk h1 blank tj (negb bj)) = Ok (h2, t2) /\ local (lheap W) ti h2 t2 /\
      (raw t2 = None -> alloc_shape t2 = []) /\ (m_gone M j = false -> get_shape t2 = get_shape tj /\ (bj = true -> t_expose h2 t2 = t_expose (lheap W) tj))).
  { destruct (m_gone M j); [exists h1, blank; split; [reflexivity|]; split; [exact L|]; split; [reflexivity|discriminate]|].
    destruct (t_copy_helper_ok junk (lheap W) ti tj (negb bj) (LInv_wf _ _ _ HI Hi) (LInv_wf _ _ _ HI Hj) NE) as [h2 [t2 [Ec [L2 [H1 [H2 [H3 H4]]]]]]].
    pose proof Ec as Ec'. rewrite (copy_free _ _ _ _ _ E) in Ec'. destruct (copy_same_shape _ _ _ _ _ Ec') as [S1 S2].
    exists h2, t2. split; [exact Ec'|]. split; [exact L2|]. split.
    - apply (copy_alloc _ _ _ _ _ (fun A => HE j tj Hj (wf_not_alloc (lheap W) tj (LInv_wf _ _ _ HI Hj) A)) Ec' H1).
    - intros _. split; [exact S1|]. intros ->. cbn [negb] in *.
      refine (copy_expose (lheap W) h2 ti tj h2 t2 W HI eq_refl (LInv_wf _ _ _ HI Hj) Ec _ S2 H1 eq_refl). intros po b R A B. exact (H3 A eq_refl po b R B). }
  destruct X as (h2 & t2 & Er & L2 & He & HS).
  set (W2 := lset W h2 i t2 kj bj). set (M' := mkM (lnotify (lnotify W2 i) i) (mark (m_gone M) i (m_gone M j))).
  assert (F2 : nth_error (l_fs W2) i = Some (mkLeaf kj bj)) by (apply fs_lset; auto).
  assert (A2 : alive (l_w W2) i t2) by (eapply alive_lset; eauto).
  assert (Ln : length (l_fs W2) = length (l_fs W)) by (unfold W2, lset; cbn [l_fs]; now rewrite length_set_nth).
  exists M'. split.
  { cbn [LeafMoveModel.mstep]. unfold lf. fold W. rewrite (rd_ok _ _ _ Fi), (rd_ok _ _ _ Fj), (lookup_ok _ _ _ Hi), (lookup_ok _ _ _ Hj). cbn [bind l_kind l_init]. rewrite Hk.
    destruct (Nat.eqb_spec i j); [contradiction|]. rewrite E. cbn [bind]. rewrite Er. reflexivity. }
  split.
  { split.
    - split; [exact (LInv_lset W h2 i ti t2 kj bj HI Hi L2 He)|]. eapply (UInv_same W); eauto. eapply tags_lset; eauto.
    - intros x Hx. unfold next. change (x < length (l_fs W2)). rewrite Ln. unfold M', mark in Hx; cbn [m_gone] in Hx.
      destruct (Nat.eqb_spec x i); [lia|]. now apply HB in Hx. }
  assert (Gi : m_gone M' i = m_gone M j) by (unfold M', mark; cbn [m_gone]; now rewrite Nat.eqb_refl).
  split.
  { assert (F2' : nth_error (l_fs (m_w M')) i = Some (mkLeaf kj bj)) by exact F2. assert (A2' : alive (l_w (m_w M')) i t2) by exact A2.
    unfold looks_like, mobserve, mleaf_eval, mget_shape, good_status, mkind, has_kind, lf, leaf_eval, lf. fold W. rewrite Gi, (rd_ok _ _ _ F2'), (rd_ok _ _ _ Fj).
    split; [|split; [|split; [reflexivity|rewrite F2', Fj; tauto]]]; destruct (m_gone M j); auto; destruct (HS eq_refl) as [S1 S2]; cbn [bind]; rewrite (lookup_ok _ _ _ A2'), (lookup_ok _ _ _ Hj); cbn [bind l_init]; [|now rewrite S1].
    destruct bj; cbn [bind]; auto. change (lheap (m_w M')) with h2. now rewrite S1, (S2 eq_refl). }
  split; [exact Ln|]. split; [|split; [change (l_log (m_w M')) with ((l_log W ++ [i]) ++ [i]); now rewrite <- app_assoc|reflexivity]].
  intros x Hx Hl. unfold next in Hl. fold W in Hl.
  destruct (nth_error (l_fs W) x) as [f|] eqn:Fx; [|apply nth_error_None in Fx; lia].
  destruct (LInv_alive W x _ HI Fx) as [tx Ax].
  apply (looks_ingredients _ _ _ _ f tx); auto.
  - change (nth_error (l_fs W2) x = Some f). unfold W2, lset; cbn [l_fs]. now rewrite nth_error_set_nth_neq by auto.
  - unfold M', mark; cbn [m_gone]. destruct (Nat.eqb_spec x i); [contradiction|reflexivity].
  - intros _. split; [change (alive (l_w W2) x tx); unfold W2, lset; cbn [l_w]; apply frame_put; auto|]. split; [exact Ax|].
    change (lheap (m_w M')) with h2. fold W. apply (expose_frame W ti h2 t2 x tx HI Ax L2). intros p Hp. apply (Inv_raw_neq (l_w W) i x ti tx p); auto.
Qed.

(** ---- every operation ---- *)
Lemma self_tag (a b : @kind T) : same_class a b = true -> movable a = true /\ movable b = true.
Proof. destruct a, b; cbn; try discriminate; auto. Qed.

Lemma old_ok M o W' : MGood M -> lstep zero junk add sub eqb (m_w M) o = Ok W' ->
  MGood (mkM W' (m_gone M)) /\ next M <= next (mkM W' (m_gone M)) /\
  (forall k, k < next M -> ~ writes (m_w M) o k -> mobserve (mkM W' (m_gone M)) k = mobserve M k).
Proof.
  intros [HG HB] E. destruct (lstep_post zero junk add sub eqb _ _ _ HG E) as [HG' [[m Hm] [Ho _]]].
  assert (Ln : next M <= length (l_fs W')).
  { unfold next. assert (X : length (tags W') = length (tags (m_w M) ++ m)) by now rewrite Hm. unfold tags in X. rewrite app_length, !map_length in X. lia. }
  split; [split; [exact HG'|]|].
  - intros i Hi. apply HB in Hi. unfold next. cbn [m_w]. lia.
  - split; [exact Ln|]. intros k Hk Hn. destruct (m_gone M k) eqn:Eg.
    + destruct (nth_error (l_fs (m_w M)) k) as [f|] eqn:Fk; [|apply nth_error_None in Fk; unfold next in Hk; lia]. rewrite (mobs_gone M k f Eg Fk).
      destruct (nth_error (l_fs W') k) as [f'|] eqn:Fk'; [|apply nth_error_None in Fk'; lia]. exact (mobs_gone (mkM W' (m_gone M)) k f' Eg Fk').
    + rewrite (mobs_old M k Eg), (mobs_old (mkM W' (m_gone M)) k Eg). now apply Ho.
Qed.

Lemma clone_husk_ok M i f : MGood M -> m_gone M i = true -> nth_error (l_fs (m_w M)) i = Some f ->
  let M' := mkM (lnew (m_w M) (lheap (m_w M)) blank (l_kind f) (l_init f)) (mark (m_gone M) (next M) true) in
  MGood M' /\ next M <= next M' /\ (forall k, k < next M -> mobserve M' k = mobserve M k).
Proof.
  intros [HG HB] G F M'. pose proof HG as [HI HU].
  assert (L0 : local (lheap (m_w M)) blank (lheap (m_w M)) blank) by (apply local_refl, wf_blank).
  assert (Ln : next M' = S (next M)) by (unfold M', next, lnew; cbn [m_w l_fs]; rewrite app_length; cbn; lia).
  split; [split|].
  - split; [now apply LInv_lnew|]. eapply (UInv_app (m_w M)); eauto. unfold M', tags, lnew; cbn [m_w l_fs]. now rewrite map_app.
  - intros x Hx. rewrite Ln. unfold M', mark in Hx; cbn [m_gone] in Hx. destruct (Nat.eqb_spec x (next M)); [lia|]. apply HB in Hx. lia.
  - split; [lia|]. intros k Hk. assert (Gk : m_gone M' k = m_gone M k) by (unfold M', mark; cbn [m_gone]; destruct (Nat.eqb_spec k (next M)); [lia|reflexivity]).
    destruct (m_gone M k) eqn:Eg.
    + destruct (nth_error (l_fs (m_w M)) k) as [fk|] eqn:Fk; [|apply nth_error_None in Fk; unfold next in Hk; lia]. rewrite (mobs_gone M k fk Eg Fk).
      apply (mobs_gone M' k fk Gk). unfold M', lnew; cbn [m_w l_fs]. rewrite nth_error_app1; auto.
    + rewrite (mobs_old M k Eg), (mobs_old M' k Gk). now apply observe_frame_lnew.
Qed.

Lemma mstep_ok M o M' : MGood M -> mstep M o = Ok M' ->
  MGood M' /\ (forall k, k < next M -> ~ changes M o k -> mobserve M' k = mobserve M k).
Proof.
  intros HM E. destruct o as [o|i|i j|i j]; cbn [LeafMoveModel.mstep] in E.
  - assert (Old : forall X, (W' <- lstep zero junk add sub eqb (m_w M) o ;; Ok (mkM W' (m_gone M))) = Ok X ->
        MGood X /\ (forall k, k < next M -> ~ writes (m_w M) o k -> mobserve X k = mobserve M k)).
    { intros X. destruct (lstep zero junk add sub eqb (m_w M) o) as [W'| | |] eqn:El; try discriminate. cbn [bind]. intros [= <-].
      destruct (old_ok M o W' HM El) as (A & _ & B). auto. }
    cbn [changes]. destruct o as [s d|v|d s|s|v|s ini|i ini|i d|i j|i|i s|a i j|u notify|i]; auto.
    + destruct (m_gone M i); [discriminate|auto].
    + destruct (m_gone M i); [discriminate|auto].
    + destruct (m_gone M i); [|auto]. destruct (lf (m_w M) i) as [f| | |]; try discriminate. cbn [bind] in E. destruct (l_kind f) as [| | |[x|]]; discriminate.
    + destruct (m_gone M i); [|auto]. destruct (lf (m_w M) i) as [f| | |]; try discriminate. cbn [bind] in E. destruct (l_kind f) as [| | |[x|]]; discriminate.
    + destruct (rd (l_us (m_w M)) u) as [x| | |]; try discriminate. cbn [bind] in E. destruct x as [|a i d|a i j]; auto.
      * destruct (m_gone M i); [discriminate|auto].
      * destruct (m_gone M i); [|destruct (m_gone M j); [discriminate|auto]]. destruct (mleaf_eval M j) as [[t|]| | |]; discriminate.
    + destruct (m_gone M i) eqn:G; [|auto]. unfold lf in E. destruct (rd (l_fs (m_w M)) i) as [f| | |] eqn:F; try discriminate. apply rd_Ok_inv in F. cbn [bind] in E.
      destruct (movable (l_kind f)); [|discriminate]. injection E as <-. destruct (clone_husk_ok M i f HM G F) as (A & _ & B). auto.
  - unfold lf in E. destruct (rd (l_fs (m_w M)) i) as [[k b]| | |] eqn:F; try discriminate. apply rd_Ok_inv in F.
    destruct (movable k) eqn:K; [|cbn [bind] in E; destruct (lookup (l_w (m_w M)) i); try discriminate; cbn [bind l_kind] in E; rewrite K in E; discriminate].
    destruct (move_ok M i k b HM F K) as (X & EX & G & _ & _ & _ & _ & O & _). cbn [LeafMoveModel.mstep] in EX. unfold lf in EX. rewrite (rd_ok _ _ _ F) in EX. rewrite EX in E. injection E as <-.
    split; [exact G|]. cbn [changes]. intros x Hx Hn. now apply O.
  - unfold lf in E. destruct (rd (l_fs (m_w M)) i) as [[ki bi]| | |] eqn:Fi; try discriminate. cbn [bind] in E. destruct (rd (l_fs (m_w M)) j) as [[kj bj]| | |] eqn:Fj; try discriminate. cbn [bind] in E.
    destruct (same_class ki kj) eqn:K.
    2:{ destruct (lookup (l_w (m_w M)) i); try discriminate; cbn [bind l_kind] in E; destruct (lookup (l_w (m_w M)) j); try discriminate; cbn [bind l_kind] in E; rewrite K in E; discriminate. }
    destruct (Nat.eqb_spec i j) as [->|Hne].
    + destruct (lookup (l_w (m_w M)) j); try discriminate; cbn [bind l_kind] in E. rewrite K in E. injection E as <-. auto.
    + pose proof (rd_Ok_inv _ _ _ Fi) as Fi'. pose proof (rd_Ok_inv _ _ _ Fj) as Fj'.
      destruct (move_assign_ok M i j ki bi kj bj HM Fi' Fj' K Hne) as (X & EX & G & _ & _ & _ & _ & O & _). cbn [LeafMoveModel.mstep] in EX. unfold lf in EX. rewrite Fi, Fj in EX. cbn [bind] in EX.
      destruct (Nat.eqb_spec i j); [contradiction|]. rewrite EX in E. injection E as <-. split; [exact G|]. cbn [changes]. intros x Hx Hn. apply O; auto.
  - unfold lf in E. destruct (rd (l_fs (m_w M)) i) as [[ki bi]| | |] eqn:Fi; try discriminate. cbn [bind] in E. destruct (rd (l_fs (m_w M)) j) as [[kj bj]| | |] eqn:Fj; try discriminate. cbn [bind] in E.
    destruct (same_class ki kj) eqn:K.
    2:{ destruct (lookup (l_w (m_w M)) i); try discriminate; cbn [bind l_kind] in E; destruct (lookup (l_w (m_w M)) j); try discriminate; cbn [bind l_kind] in E; rewrite K in E; discriminate. }
    destruct (Nat.eqb_spec i j) as [->|Hne].
    + destruct (lookup (l_w (m_w M)) j); try discriminate; cbn [bind l_kind] in E. rewrite K in E. injection E as <-. auto.
    + pose proof (rd_Ok_inv _ _ _ Fi) as Fi'. pose proof (rd_Ok_inv _ _ _ Fj) as Fj'.
      destruct (copy_assign_ok M i j ki bi kj bj HM Fi' Fj' K Hne) as (X & EX & G & _ & _ & O & _). cbn [LeafMoveModel.mstep] in EX. unfold lf in EX. rewrite Fi, Fj in EX. cbn [bind] in EX.
      destruct (Nat.eqb_spec i j); [contradiction|]. rewrite EX in E. injection E as <-. split; [exact G|]. cbn [changes]. intros x Hx Hn. now apply (O x Hn Hx).
Qed.

Lemma mrun_good ops : forall M M', MGood M -> mrun M ops = Ok M' -> MGood M'.
Proof.
  induction ops as [|o ops IH]; intros M M' HM E; cbn [LeafMoveModel.mrun] in E; [congruence|].
  destruct (mstep M o) as [M1| | |] eqn:E1; try discriminate. cbn [bind] in E. apply (IH M1); auto. now apply (mstep_ok M o M1).
Qed.
Lemma mreach_good ops M : mrun minit ops = Ok M -> MGood M.
Proof. intros E. eapply mrun_good; eauto. split; [apply Good_init|]. discriminate. Qed.
End P.

(** Moving a placeholder or variable: the new node looks exactly as the old one did (value,
    shape, status, initializer); the old one evaluates to nothing, has the shape of rank 0 and
    no initializer; no other node changes and nothing is notified. Finding: the old node still
    says that its status is good if it did before. *)
Lemma C70_move_lemma :
  forall (T : Type) (zero junk : T) add sub eqb ops (M : @mworld T) i,
    mrun zero junk add sub eqb minit ops = Ok M -> mplace M i \/ mvar M i ->
    exists M', mstep zero junk add sub eqb M (MMove i) = Ok M' /\
      looks_like M' (next M) M i /\
      mobserve M' i = Ok None /\ mget_shape M' i = Ok [] /\ good_status M' i = good_status M i /\
      (mplace M i -> mplace M' i) /\ (mvar M i -> mkind M' i (KVar None)) /\
      (forall x, x <> i -> x < next M -> mobserve M' x = mobserve M x) /\ l_log (m_w M') = l_log (m_w M).
Proof.
  intros T zero junk add sub eqb ops M i Er Hk. pose proof (mreach_good _ _ _ _ _ _ _ Er) as HM.
  assert (X : exists k b, nth_error (l_fs (m_w M)) i = Some (mkLeaf k b) /\ movable k = true) by (destruct Hk as [[b F]|[ini [b F]]]; eauto).
  destruct X as (k & b & F & Hm). destruct (move_ok zero junk add sub eqb M i k b HM F Hm) as (M' & E & _ & L & G & F' & _ & O & Lg & _).
  destruct (husk_ok M' i k b G F') as [(H1 & H2 & H3) H4].
  exists M'. split; [exact E|]. split; [exact L|]. split; [exact H1|]. split; [exact H2|].
  split; [rewrite H4; unfold good_status, lf; now rewrite (rd_ok _ _ _ F)|].
  split; [intros [b' F1]; rewrite F in F1; injection F1 as -> ->; exact H3|].
  split; [intros [ini [b' F1]]; rewrite F in F1; injection F1 as -> ->; exact H3|]. auto.
Qed.

(** Move assignment i = std::move(j): the same for i in place of the new node; both notify.
    Whatever i was before, moved from or not, does not matter. *)
Lemma C70_move_assign_lemma :
  forall (T : Type) (zero junk : T) add sub eqb ops (M : @mworld T) i j,
    mrun zero junk add sub eqb minit ops = Ok M -> (mplace M i /\ mplace M j) \/ (mvar M i /\ mvar M j) -> i <> j ->
    exists M', mstep zero junk add sub eqb M (MMoveAssign i j) = Ok M' /\
      looks_like M' i M j /\
      mobserve M' j = Ok None /\ mget_shape M' j = Ok [] /\ good_status M' j = good_status M j /\
      (mplace M j -> mplace M' j) /\ (mvar M j -> mkind M' j (KVar None)) /\
      (forall x, x <> i -> x <> j -> x < next M -> mobserve M' x = mobserve M x) /\ l_log (m_w M') = l_log (m_w M) ++ [i; i].
Proof.
  intros T zero junk add sub eqb ops M i j Er Hk Hne. pose proof (mreach_good _ _ _ _ _ _ _ Er) as HM.
  assert (X : exists ki bi k b, nth_error (l_fs (m_w M)) i = Some (mkLeaf ki bi) /\ nth_error (l_fs (m_w M)) j = Some (mkLeaf k b) /\ same_class ki k = true).
  { destruct Hk as [[[bi Fi] [bj Fj]]|[[ii [bi Fi]] [ij [bj Fj]]]]; eauto 10. }
  destruct X as (ki & bi & k & b & Fi & F & Hm). destruct (move_assign_ok zero junk add sub eqb M i j ki bi k b HM Fi F Hm Hne) as (M' & E & _ & L & G & F' & _ & O & Lg & _).
  destruct (husk_ok M' j k b G F') as [(H1 & H2 & H3) H4].
  exists M'. split; [exact E|]. split; [exact L|]. split; [exact H1|]. split; [exact H2|].
  split; [rewrite H4; unfold good_status, lf; now rewrite (rd_ok _ _ _ F)|].
  split; [intros [b' F1]; rewrite F in F1; injection F1 as -> ->; exact H3|].
  split; [intros [ini [b' F1]]; rewrite F in F1; injection F1 as -> ->; exact H3|]. auto.
Qed.

(** Copy assignment i = j: i then looks exactly as j does, every other node, j too, looks as it
    did; i notifies twice. *)
Lemma C70_copy_assign_lemma :
  forall (T : Type) (zero junk : T) add sub eqb ops (M : @mworld T) i j,
    mrun zero junk add sub eqb minit ops = Ok M -> (mplace M i /\ mplace M j) \/ (mvar M i /\ mvar M j) -> i <> j ->
    exists M', mstep zero junk add sub eqb M (MCopyAssign i j) = Ok M' /\
      looks_like M' i M j /\ (forall x, x <> i -> x < next M -> looks_like M' x M x) /\ l_log (m_w M') = l_log (m_w M) ++ [i; i].
Proof.
  intros T zero junk add sub eqb ops M i j Er Hk Hne. pose proof (mreach_good _ _ _ _ _ _ _ Er) as HM.
  assert (X : exists ki bi k b, nth_error (l_fs (m_w M)) i = Some (mkLeaf ki bi) /\ nth_error (l_fs (m_w M)) j = Some (mkLeaf k b) /\ same_class ki k = true).
  { destruct Hk as [[[bi Fi] [bj Fj]]|[[ii [bi Fi]] [ij [bj Fj]]]]; eauto 10. }
  destruct X as (ki & bi & k & b & Fi & F & Hm). destruct (copy_assign_ok zero junk add sub eqb M i j ki bi k b HM Fi F Hm Hne) as (M' & E & _ & L & _ & O & Lg & _).
  exists M'. auto.
Qed.

(** Assigning a node to itself, by copy or by move, changes nothing. *)
Lemma C70_self_assign_lemma :
  forall (T : Type) (zero junk : T) add sub eqb ops (M : @mworld T) i,
    mrun zero junk add sub eqb minit ops = Ok M -> mplace M i \/ mvar M i ->
    mstep zero junk add sub eqb M (MMoveAssign i i) = Ok M /\ mstep zero junk add sub eqb M (MCopyAssign i i) = Ok M.
Proof.
  intros T zero junk add sub eqb ops M i Er Hk. pose proof (mreach_good _ _ _ _ _ _ _ Er) as [[HI _] _].
  assert (X : exists k b, nth_error (l_fs (m_w M)) i = Some (mkLeaf k b) /\ same_class k k = true) by (destruct Hk as [[b F]|[ini [b F]]]; eauto).
  destruct X as (k & b & F & Hm). destruct (LInv_alive _ _ _ HI F) as [t Ha].
  cbn [LeafMoveModel.mstep]. unfold lf. rewrite (rd_ok _ _ _ F), (lookup_ok _ _ _ Ha). cbn [bind l_kind]. rewrite Hm, Nat.eqb_refl. auto.
Qed.

(** Moving a node away and back again: it looks as it did before. *)
Lemma C70_move_back_lemma :
  forall (T : Type) (zero junk : T) add sub eqb ops (M : @mworld T) i,
    mrun zero junk add sub eqb minit ops = Ok M -> mplace M i \/ mvar M i ->
    exists M', mrun zero junk add sub eqb M [MMove i; MMoveAssign i (next M)] = Ok M' /\
      looks_like M' i M i /\ mobserve M' (next M) = Ok None /\
      (forall x, x <> i -> x < next M -> mobserve M' x = mobserve M x).
Proof.
  intros T zero junk add sub eqb ops M i Er Hk. pose proof (mreach_good _ _ _ _ _ _ _ Er) as HM.
  assert (X : exists k b, nth_error (l_fs (m_w M)) i = Some (mkLeaf k b) /\ movable k = true) by (destruct Hk as [[b F]|[ini [b F]]]; eauto).
  destruct X as (k & b & F & Hm). destruct (move_ok zero junk add sub eqb M i k b HM F Hm) as (M1 & E & HM1 & L & G & F1 & N1 & O & _ & _).
  assert (Li : i < next M) by (apply nth_error_lt in F; exact F).
  assert (Fn : exists bn, nth_error (l_fs (m_w M1)) (next M) = Some (mkLeaf k bn)) by (apply (proj2 (proj2 (proj2 L)) k); exists b; exact F). destruct Fn as [bn Fn].
  assert (Sc : same_class (moved_kind k) k = true) by (destruct k; auto).
  destruct (move_assign_ok zero junk add sub eqb M1 i (next M) _ _ _ _ HM1 F1 Fn Sc ltac:(lia)) as (M' & E' & _ & L' & G' & F' & _ & O' & _).
  exists M'. cbn [mrun]. rewrite E. cbn [bind]. rewrite E'. split; [reflexivity|]. split.
  - destruct L as (A1 & A2 & A3 & A4), L' as (B1 & B2 & B3 & B4). split; [congruence|]. split; [congruence|]. split; [congruence|]. intros q. now rewrite B4.
  - split; [eapply mobs_gone; eauto|]. intros x Hx Hl. rewrite O' by lia. now apply O.
Qed.

(** No operation changes what a node that it does not write to looks like. *)
Lemma C70_others_unchanged_lemma :
  forall (T : Type) (zero junk : T) add sub eqb ops (M M' : @mworld T) o k,
    mrun zero junk add sub eqb minit ops = Ok M -> mstep zero junk add sub eqb M o = Ok M' ->
    k < next M -> ~ changes M o k -> mobserve M' k = mobserve M k.
Proof. intros T zero junk add sub eqb ops M M' o k Er E. exact (proj2 (mstep_ok zero junk add sub eqb M o M' (mreach_good _ _ _ _ _ _ _ Er) E) k). Qed.

(** Findings: a node that has been moved from cannot be used again (except by assigning another
    node to it). Initialising a variable then fails its assertion, and follows a null pointer
    if an initializer is set first; so does feeding a placeholder. An updater made before or
    after the move, whether it reads the node or writes to it, fails an assertion or follows a
    null pointer, and every updater with constant data for it follows the null pointer. *)
Lemma C70_moved_from_refuted_lemma :
  forall (T : Type) (zero junk : T) add sub eqb ops (M M' : @mworld T) i,
    mrun zero junk add sub eqb minit ops = Ok M ->
    mstep zero junk add sub eqb M (MMove i) = Ok M' \/ (exists x, x <> i /\ mstep zero junk add sub eqb M (MMoveAssign x i) = Ok M') ->
    let step o := mstep zero junk add sub eqb M' (MOp o) in
    (mvar M' i -> step (LInit i) = Abort /\ (forall s, step (LInitShape i s) = Abort) /\
       forall f M2, step (LSetInit i f) = Ok M2 -> mstep zero junk add sub eqb M2 (MOp (LInit i)) = UB) /\
    (mplace M' i -> forall d, step (LFeed i d) = UB) /\
    (forall u a d b, nth_error (l_us (m_w M')) u = Some (UData a i d) -> step (LRun u b) = UB) /\
    (forall u a x b, nth_error (l_us (m_w M')) u = Some (UNode a x i) -> x < next M' -> step (LRun u b) = Abort) /\
    (forall u a x b, nth_error (l_us (m_w M')) u = Some (UNode a i x) -> step (LRun u b) = UB \/ step (LRun u b) = Abort).
Proof.
  intros T zero junk add sub eqb ops M M' i Er Hs step. pose proof (mreach_good _ _ _ _ _ _ _ Er) as HM.
  assert (X : m_gone M' i = true /\ MGood M' /\ (exists k b, nth_error (l_fs (m_w M')) i = Some (mkLeaf (moved_kind k) b))).
  { destruct Hs as [E|[x [Hx E]]]; pose proof E as E0; cbn [LeafMoveModel.mstep] in E; unfold lf in E.
    - destruct (rd (l_fs (m_w M)) i) as [[k b]| | |] eqn:F; try discriminate. cbn [bind] in E. destruct (lookup (l_w (m_w M)) i) as [t| | |] eqn:Lk; try discriminate. cbn [bind l_kind] in E.
      destruct (movable k) eqn:K; [|discriminate]. apply rd_Ok_inv in F.
      destruct (move_ok zero junk add sub eqb M i k b HM F K) as (M1 & E1 & G1 & _ & A & B & _). rewrite E0 in E1. injection E1 as <-. eauto.
    - destruct (rd (l_fs (m_w M)) x) as [[kx bx]| | |] eqn:Fx; try discriminate. cbn [bind] in E. destruct (rd (l_fs (m_w M)) i) as [[k b]| | |] eqn:F; try discriminate. cbn [bind] in E.
      destruct (lookup (l_w (m_w M)) x) as [t| | |]; try discriminate. cbn [bind] in E. destruct (lookup (l_w (m_w M)) i) as [t'| | |]; try discriminate. cbn [bind l_kind] in E.
      destruct (same_class kx k) eqn:K; [|discriminate]. apply rd_Ok_inv in F. apply rd_Ok_inv in Fx.
      destruct (move_assign_ok zero junk add sub eqb M x i kx bx k b HM Fx F K Hx) as (M1 & E1 & G1 & _ & A & B & _). rewrite E0 in E1. injection E1 as <-. eauto. }
  destruct X as (G & HM' & k & b & F).
  assert (Lf : lf (m_w M') i = Ok (mkLeaf (moved_kind k) b)) by (unfold lf; now apply rd_ok).
  split; [|split; [|split; [|split]]].
  - intros [ini [b' F']]. rewrite F in F'. injection F' as K ->. assert (Kn : moved_kind k = KVar None) by (destruct k; cbn in *; congruence).
    unfold step. cbn [LeafMoveModel.mstep]. rewrite G, Lf. cbn [bind l_kind]. rewrite Kn. split; [reflexivity|]. split; [reflexivity|].
    intros f M2. destruct HM' as [[HI _] _]. destruct (LInv_alive _ _ _ HI F) as [t Ha]. cbn [lstep]. rewrite Lf, (lookup_ok _ _ _ Ha). cbn [bind l_kind l_init]. rewrite Kn. cbn [bind].
    intros [= <-]. cbn [m_gone m_w]. rewrite G. unfold lf. rewrite (rd_ok _ _ (mkLeaf (KVar (Some f)) b')); [reflexivity|].
    apply fs_lset. now apply nth_error_lt in F.
  - intros _ d. unfold step. cbn [LeafMoveModel.mstep]. now rewrite G.
  - intros u a d n Hu. unfold step. cbn [LeafMoveModel.mstep]. rewrite (rd_ok _ _ _ Hu). cbn [bind]. now rewrite G.
  - intros u a x n Hu Hx. unfold step. cbn [LeafMoveModel.mstep]. rewrite (rd_ok _ _ _ Hu). cbn [bind]. rewrite G.
    unfold mleaf_eval. rewrite G, Lf. cbn [bind]. now destruct (m_gone M' x).
  - intros u a x n Hu. unfold step. cbn [LeafMoveModel.mstep]. rewrite (rd_ok _ _ _ Hu). cbn [bind]. rewrite G.
    unfold mleaf_eval, leaf_eval, lf. destruct HM' as [[HI HU] HB].
    destruct (m_gone M' x) eqn:Gx.
    + destruct (rd (l_fs (m_w M')) x) as [f| | |] eqn:Fx; cbn [bind]; auto; unfold rd in Fx; destruct (nth_error (l_fs (m_w M')) x); discriminate.
    + destruct (rd (l_fs (m_w M')) x) as [f| | |] eqn:Fx; cbn [bind]; auto; try (unfold rd in Fx; destruct (nth_error (l_fs (m_w M')) x); discriminate).
      destruct (lookup (l_w (m_w M')) x) as [t| | |] eqn:Lk; cbn [bind]; auto; try (unfold lookup in Lk; destruct (nth_error (w_ts (l_w (m_w M'))) x) as [[q|]|]; discriminate).
      destruct (l_init f); auto.
Qed.

Lemma C70_nonvacuous_lemma :
  exists (M M2 : @mworld nat),
    mrun 0 0 Nat.add Nat.sub Nat.eqb minit
      [MOp (LVar [2] (Some (fun k => 10 + k))); MOp (LInit 0); MOp (LVar [3] (Some (fun k => k))); MOp (LInit 1); MOp (LUpdater AAdd 0 1); MMove 0] = Ok M /\
    mobserve M 2 = Ok (Some ([2], [10; 11])) /\ mobserve M 0 = Ok None /\ mobserve M 1 = Ok (Some ([3], [0; 1; 2])) /\ good_status M 0 = Ok true /\
    mstep 0 0 Nat.add Nat.sub Nat.eqb M (MOp (LInit 0)) = Abort /\ mstep 0 0 Nat.add Nat.sub Nat.eqb M (MOp (LRun 0 true)) = UB /\
    mrun 0 0 Nat.add Nat.sub Nat.eqb M [MCopyAssign 0 1; MMoveAssign 1 2; MOp (LRun 0 true); MOp (LClone 2)] = Abort /\
    mrun 0 0 Nat.add Nat.sub Nat.eqb M [MCopyAssign 0 1; MOp (LRun 0 true); MMoveAssign 1 2; MOp (LClone 2)] = Ok M2 /\
    mobserve M2 0 = Ok (Some ([3], [0; 2; 4])) /\ mobserve M2 1 = Ok (Some ([2], [10; 11])) /\ mobserve M2 2 = Ok None /\ mobserve M2 3 = Ok None /\
    l_log (m_w M2) = [0; 1; 0; 0; 0; 1; 1].
Proof.
  let r := eval vm_compute in (mrun 0 0 Nat.add Nat.sub Nat.eqb minit
      [MOp (LVar [2] (Some (fun k => 10 + k))); MOp (LInit 0); MOp (LVar [3] (Some (fun k => k))); MOp (LInit 1); MOp (LUpdater AAdd 0 1); MMove 0]) in
  match r with Ok ?w => exists w;
    let r2 := eval vm_compute in (mrun 0 0 Nat.add Nat.sub Nat.eqb w [MCopyAssign 0 1; MOp (LRun 0 true); MMoveAssign 1 2; MOp (LClone 2)]) in
    match r2 with Ok ?w2 => exists w2 end end.
  repeat split; vm_compute; reflexivity.
Qed.
