From Verif Require Import Common ShapeModel ShapeSpec ShapeProofs FitModel FitProofs TensorModel TensorSpec TensorProofs TensorDataLaws LeafModel LeafSpec.

Section P.
Context {T : Type} (zero junk : T) (add sub : T -> T -> T) (eqb : T -> T -> bool).
Implicit Types h : heap T.

Definition holdsb h (t : tensor) (p : nat) (b : list T) : Prop :=
  raw t = Some p /\ nth_error h p = Some (Some b) /\ length b = n_elems (alloc_shape t) /\ defined (alloc_shape t).

Lemma holdsb_alloc h t p b : holdsb h t p b -> is_alloc t = true.
Proof. intros [R [_ [_ D]]]. apply is_alloc_iff. eauto. Qed.

Lemma holdsb_expose h t p b : holdsb h t p b -> t_expose h t = Ok b.
Proof.
  intros H. pose proof (holdsb_alloc _ _ _ _ H) as A. destruct H as [R [Hp [L D]]].
  unfold t_expose. rewrite A, R. cbn [assert_ bind]. rewrite (hget_ok _ _ _ Hp). cbn [bind].
  rewrite L, Nat.leb_refl. f_equal. rewrite <- L. apply firstn_all.
Qed.

Lemma holdsb_get_raw h t p b : holdsb h t p b -> get_raw t = Ok p.
Proof. intros H. pose proof (holdsb_alloc _ _ _ _ H) as A. destruct H as [R _]. unfold get_raw. now rewrite A, R. Qed.

Lemma holdsb_shape h t p b : holdsb h t p b -> get_shape t = alloc_shape t.
Proof. intros H. unfold get_shape. now rewrite (holdsb_alloc _ _ _ _ H). Qed.

Lemma holdsb_nelems h t p b : holdsb h t p b -> t_n_elems t = n_elems (alloc_shape t).
Proof. intros [R _]. unfold t_n_elems. now rewrite R. Qed.

Lemma wf_holdsb h t : wf h t -> is_alloc t = true -> exists p b, holdsb h t p b.
Proof.
  intros W A. apply is_alloc_iff in A. destruct A as [_ [p R]]. destruct (W p R) as [b [H1 [H2 H3]]].
  exists p, b. split; auto.
Qed.

Lemma holdsb_put h t p b b' : holdsb h t p b -> length b' = length b -> holdsb (hput h p b') t p b'.
Proof.
  intros [R [Hp [L D]]] E. split; auto. split; [|split; auto; congruence].
  unfold hput. apply nth_error_set_nth_eq. now apply nth_error_lt in Hp.
Qed.

Lemma local_hput h t p b b' : holdsb h t p b -> length b' = length b -> local h t (hput h p b') t.
Proof.
  intros H E. pose proof (holdsb_put _ _ _ _ _ H E) as H'. destruct H as [R [Hp [L D]]]. destruct H' as [_ [Hp' [L' _]]].
  assert (Hlt : p < length h) by now apply nth_error_lt in Hp.
  split; [unfold hput; now rewrite length_set_nth|]. split; [|split].
  - intros q Hq Hne. unfold hput. apply nth_error_set_nth_neq. congruence.
  - intros q c Hq [Hge|Hr]; auto. apply nth_error_lt in Hq. unfold hput in Hq. rewrite length_set_nth in Hq. lia.
  - intros q Hq. assert (q = p) by congruence. subst q. split; auto. exists b'. auto.
Qed.

(** a loop rewriting the buffer at [p] cell by cell *)
Lemma fill_loop h p b (f : nat -> T -> T) n body :
  nth_error h p = Some (Some b) -> n = length b ->
  (forall i b1, i < n -> length b1 = n -> (forall k, i <= k -> nth_error b1 k = nth_error b k) ->
     forall x, nth_error b i = Some x ->
     body i (hput h p b1) = Ok (hput h p (set_nth i (f i x) b1))) ->
  exists b', for_ n body h = Ok (hput h p b') /\ length b' = n /\
    (forall k x, nth_error b k = Some x -> nth_error b' k = Some (f k x)).
Proof.
  intros Hp Hn Hb.
  assert (H0 : hput h p b = h).
  { unfold hput. clear Hb. revert p Hp. induction h as [|z h IH]; intros [|p] Hp; simpl in *; try discriminate; auto.
    - congruence.
    - f_equal; auto. }
  destruct (for_inv (fun i h' => exists b1, h' = hput h p b1 /\ length b1 = n /\
      (forall k, i <= k -> nth_error b1 k = nth_error b k) /\
      (forall k x, k < i -> nth_error b k = Some x -> nth_error b1 k = Some (f k x))) body n h) as [h' [E [b' [E1 [L [_ H2]]]]]].
  - exists b. split; auto. split; auto. split; auto. intros; lia.
  - intros j h' Hj [b1 [-> [L [H1 H2]]]].
    destruct (nth_error b j) as [x|] eqn:Ex.
    2:{ apply nth_error_None in Ex. lia. }
    exists (hput h p (set_nth j (f j x) b1)). split; [apply Hb; auto|].
    exists (set_nth j (f j x) b1). split; auto. split; [now rewrite length_set_nth|]. split.
    + intros k Hk. rewrite nth_error_set_nth_neq by lia. apply H1; lia.
    + intros k y Hk Hy. destruct (Nat.eq_dec j k) as [->|Hne].
      * rewrite nth_error_set_nth_eq by lia. congruence.
      * rewrite nth_error_set_nth_neq by auto. apply H2; auto. lia.
  - subst h'. exists b'. split; auto. split; auto. intros k x Hx. apply H2; auto. rewrite Hn. now apply nth_error_lt in Hx.
Qed.

Lemma hput_hput h p b1 b2 : hput (hput h p b1) p b2 = hput h p b2.
Proof. unfold hput. revert p. induction h as [|z h IH]; intros [|p]; simpl; auto. now f_equal. Qed.

Lemma hget_hput h p b b' : nth_error h p = Some (Some b) -> hget (hput h p b') p = Ok b'.
Proof. intros H. apply hget_ok. unfold hput. apply nth_error_set_nth_eq. now apply nth_error_lt in H. Qed.

Lemma nth_error_zipw f (x y : list T) k :
  nth_error (zipw f x y) k = match nth_error x k, nth_error y k with Some a, Some b => Some (f a b) | _, _ => None end.
Proof.
  unfold zipw. revert y k. induction x as [|a x IH]; intros [|b y] [|k]; simpl; auto.
  now destruct (nth_error x k).
Qed.

Lemma length_zipw f (x y : list T) : length (zipw f x y) = Nat.min (length x) (length y).
Proof. unfold zipw. now rewrite map_length, combine_length. Qed.

Lemma assign_vector_ok h t p b d f :
  holdsb h t p b -> n_elems (alloc_shape t) <= length d ->
  assign_vector h t d f = Ok (hput h p (zipw f b d)).
Proof.
  intros H Hd. pose proof H as [R [Hp [L D]]].
  unfold assign_vector. rewrite (holdsb_shape _ _ _ _ H). apply Nat.leb_le in Hd as Hd'. rewrite Hd'. cbn [assert_ bind].
  rewrite (holdsb_get_raw _ _ _ _ H). cbn [bind].
  match goal with |- for_ ?n ?body h = _ => destruct (fill_loop h p b (fun k x => match nth_error d k with Some y => f x y | None => x end) n body Hp) as [b' [E [L' Hb']]]; auto end.
  - intros i b1 Hi Lb1 H1 x Hx. rewrite (hget_hput _ _ _ _ Hp). cbn [bind].
    rewrite (rd_ok b1 i x) by (rewrite H1; auto). cbn [bind].
    destruct (rd_lt d i) as [y [Hy Ey]]; [lia|]. rewrite Ey, Hy. cbn [bind]. rewrite wr_ok by lia. cbn [bind].
    now rewrite hput_hput.
  - rewrite E. do 2 f_equal. apply nth_error_ext_lt.
    + rewrite length_zipw. lia.
    + intros k Hk. rewrite nth_error_zipw. destruct (rd_lt b k) as [x [Hx _]]; [lia|]. rewrite (Hb' k x Hx), Hx.
      destruct (rd_lt d k) as [y [Hy _]]; [lia|]. now rewrite Hy.
Qed.

Lemma assign_tensor_ok h t p b ti q d f :
  holdsb h t p b -> holdsb h ti q d -> length d = length b ->
  assign_tensor h t ti f = Ok (hput h p (zipw f b d)).
Proof.
  intros H Hi Hd. pose proof H as [R [Hp [L D]]]. pose proof Hi as [Ri [Hq [Li Di]]].
  unfold assign_tensor. rewrite (holdsb_shape _ _ _ _ H), (holdsb_nelems _ _ _ _ Hi), <- Li, <- L, Hd, Nat.eqb_refl. cbn [assert_ bind].
  rewrite (holdsb_get_raw _ _ _ _ H), (holdsb_get_raw _ _ _ _ Hi). cbn [bind].
  match goal with |- for_ ?n ?body h = _ => destruct (fill_loop h p b (fun k x => match nth_error d k with Some y => f x y | None => x end) n body Hp) as [b' [E [L' Hb']]]; auto end.
  - intros i b1 Hlt Lb1 H1 x Hx. rewrite (hget_hput _ _ _ _ Hp). cbn [bind].
    destruct (rd_lt d i) as [y [Hy Ey]]; [lia|]. rewrite Hy.
    assert (Es : exists sb, hget (hput h p b1) q = Ok sb /\ rd sb i = Ok y).
    { destruct (Nat.eq_dec p q) as [<-|Hne].
      - exists b1. split; [now apply (hget_hput _ _ b)|]. apply rd_ok. rewrite H1 by auto.
        rewrite Hp in Hq. injection Hq as ->. exact Hy.
      - exists d. split; auto. apply hget_ok. unfold hput. rewrite nth_error_set_nth_neq; auto. }
    destruct Es as [sb [-> Er]]. cbn [bind].
    rewrite (rd_ok b1 i x) by (rewrite H1; auto). cbn [bind]. rewrite Er. cbn [bind]. rewrite wr_ok by lia. cbn [bind].
    now rewrite hput_hput.
  - rewrite E. do 2 f_equal. apply nth_error_ext_lt.
    + rewrite length_zipw. lia.
    + intros k Hk. rewrite nth_error_zipw. destruct (rd_lt b k) as [x [Hx _]]; [lia|]. rewrite (Hb' k x Hx), Hx.
      destruct (rd_lt d k) as [y [Hy _]]; [lia|]. now rewrite Hy.
Qed.

Lemma run_init_ok h t p b (ini : nat -> T) :
  holdsb h t p b -> run_init h t ini = Ok (hput h p (map ini (seq 0 (n_elems (alloc_shape t))))).
Proof.
  intros H. pose proof H as [R [Hp [L D]]].
  unfold run_init. rewrite (holdsb_get_raw _ _ _ _ H), (holdsb_shape _ _ _ _ H). cbn [bind].
  match goal with |- for_ ?n ?body h = _ => destruct (fill_loop h p b (fun k _ => ini k) n body Hp) as [b' [E [L' Hb']]]; auto end.
  - intros i b1 Hlt Lb1 H1 x Hx. rewrite (hget_hput _ _ _ _ Hp). cbn [bind]. rewrite wr_ok by lia. cbn [bind].
    now rewrite hput_hput.
  - rewrite E. do 2 f_equal. apply nth_error_ext_lt.
    + now rewrite map_length, seq_length.
    + intros k Hk. destruct (rd_lt b k) as [x [Hx _]]; [lia|]. rewrite (Hb' k x Hx).
      rewrite nth_error_map, nth_error_seq by lia. reflexivity.
Qed.

(** inversion: a successful assignment went to an allocated tensor *)
Lemma assign_vector_inv h t d f h' : wf h t -> assign_vector h t d f = Ok h' ->
  exists p b, holdsb h t p b /\ n_elems (alloc_shape t) <= length d /\ h' = hput h p (zipw f b d).
Proof.
  intros W E. unfold assign_vector, get_raw in E.
  destruct (n_elems (get_shape t) <=? length d) eqn:Hd; cbn [assert_ bind] in E; [|discriminate].
  destruct (is_alloc t) eqn:A; cbn [assert_ bind] in E; [|discriminate].
  destruct (wf_holdsb h t W A) as [p [b H]]. exists p, b. split; auto.
  rewrite (holdsb_shape _ _ _ _ H) in Hd. apply Nat.leb_le in Hd. split; auto.
  pose proof (assign_vector_ok h t p b d f H Hd) as E2. unfold assign_vector, get_raw in E2.
  rewrite A, (holdsb_shape _ _ _ _ H) in E2. apply Nat.leb_le in Hd. rewrite Hd in E2. cbn [assert_ bind] in E2.
  rewrite (holdsb_shape _ _ _ _ H) in E. rewrite E in E2. congruence.
Qed.

Lemma assign_tensor_inv h t ti f h' : wf h t -> wf h ti -> assign_tensor h t ti f = Ok h' ->
  exists p b q d, holdsb h t p b /\ holdsb h ti q d /\ length d = length b /\ h' = hput h p (zipw f b d).
Proof.
  intros W Wi E. pose proof E as E0. unfold assign_tensor, get_raw in E.
  destruct (t_n_elems ti =? n_elems (get_shape t)) eqn:Hd; cbn [assert_ bind] in E; [|discriminate].
  destruct (is_alloc t) eqn:A; cbn [assert_ bind] in E; [|discriminate].
  destruct (raw t) eqn:R; cbn [bind] in E; [|discriminate].
  destruct (is_alloc ti) eqn:Ai; cbn [assert_ bind] in E; [|discriminate].
  destruct (wf_holdsb h t W A) as [p [b H]]. destruct (wf_holdsb h ti Wi Ai) as [q [d Hi]].
  exists p, b, q, d. split; auto. split; auto.
  assert (Hl : length d = length b).
  { apply Nat.eqb_eq in Hd. rewrite (holdsb_shape _ _ _ _ H), (holdsb_nelems _ _ _ _ Hi) in Hd.
    destruct H as [_ [_ [L _]]]. destruct Hi as [_ [_ [Li _]]]. congruence. }
  split; auto. rewrite (assign_tensor_ok _ _ _ _ _ _ _ f H Hi Hl) in E0. congruence.
Qed.

(** ---- worlds ---- *)
Implicit Types W : @lworld T.

Definition LInv W : Prop :=
  Inv (l_w W) /\ length (l_fs W) = length (w_ts (l_w W)) /\
  (forall i, i < length (l_fs W) -> exists t, alive (l_w W) i t) /\
  (forall i t, alive (l_w W) i t -> raw t = None -> alloc_shape t = []).

Lemma LInv_init : LInv linit.
Proof.
  split; [apply Inv_init|]. split; auto. split; [intros i Hi; simpl in Hi; lia|].
  intros [|i] t H; discriminate.
Qed.

Lemma LInv_wf W i t : LInv W -> alive (l_w W) i t -> wf (lheap W) t.
Proof. intros [[H _] _] A. now apply (H i). Qed.

Lemma LInv_fs W i t : LInv W -> alive (l_w W) i t -> exists f, nth_error (l_fs W) i = Some f.
Proof.
  intros [_ [L _]] A. unfold alive in A. apply nth_error_lt in A. rewrite <- L in A.
  destruct (nth_error (l_fs W) i) eqn:E; eauto. apply nth_error_None in E. lia.
Qed.

Lemma LInv_alive W i f : LInv W -> nth_error (l_fs W) i = Some f -> exists t, alive (l_w W) i t.
Proof. intros [_ [_ [H _]]] E. apply H. now apply nth_error_lt in E. Qed.

Lemma LInv_lset W h' i t t' k b :
  LInv W -> alive (l_w W) i t -> local (lheap W) t h' t' -> (raw t' = None -> alloc_shape t' = []) ->
  LInv (lset W h' i t' k b).
Proof.
  intros [HI [HL [HA HE]]] Ha Lc He. assert (Hi : i < length (w_ts (l_w W))) by (unfold alive in Ha; now apply nth_error_lt in Ha).
  split; [|split; [|split]]; cbn [lset l_w l_fs].
  - now apply (Inv_update (l_w W) i t).
  - cbn [put w_ts]. now rewrite !length_set_nth.
  - intros j Hj. rewrite length_set_nth in Hj. destruct (HA j Hj) as [tj Hj']. unfold alive, put in *. cbn [w_ts].
    destruct (Nat.eq_dec i j) as [->|]; [exists t'; now apply nth_error_set_nth_eq|]. exists tj. now rewrite nth_error_set_nth_neq.
  - intros j tj Hj. unfold alive, put in Hj. cbn [w_ts] in Hj. destruct (Nat.eq_dec i j) as [->|].
    + rewrite nth_error_set_nth_eq in Hj by auto. injection Hj as <-. exact He.
    + rewrite nth_error_set_nth_neq in Hj by auto. now apply (HE j).
Qed.

Lemma LInv_lnew W h' t' k b :
  LInv W -> local (lheap W) blank h' t' -> (raw t' = None -> alloc_shape t' = []) -> LInv (lnew W h' t' k b).
Proof.
  intros [HI [HL [HA HE]]] Lc He. split; [|split; [|split]]; cbn [lnew l_w l_fs].
  - now apply Inv_add.
  - cbn [TensorModel.add w_ts]. rewrite !app_length. simpl. lia.
  - intros j Hj. rewrite app_length in Hj. simpl in Hj. unfold alive, TensorModel.add. cbn [w_ts].
    destruct (Nat.eq_dec j (length (l_fs W))) as [->|].
    + exists t'. rewrite HL, nth_error_app2, Nat.sub_diag by lia. reflexivity.
    + destruct (HA j ltac:(lia)) as [tj Hj']. exists tj. unfold alive in Hj'. rewrite nth_error_app1; auto. now apply nth_error_lt in Hj'.
  - intros j tj Hj. unfold alive, TensorModel.add in Hj. cbn [w_ts] in Hj.
    destruct (Nat.lt_ge_cases j (length (w_ts (l_w W)))).
    + rewrite nth_error_app1 in Hj by auto. now apply (HE j).
    + rewrite nth_error_app2 in Hj by auto. destruct (j - length (w_ts (l_w W))) as [|m]; simpl in Hj; [injection Hj as <-; exact He|destruct m; discriminate].
Qed.

Lemma LInv_lnotify W i : LInv W -> LInv (lnotify W i).
Proof. auto. Qed.

Definition lput W h' : @lworld T := mkLW (mkW h' (w_ts (l_w W))) (l_fs W) (l_us W) (l_log W).

Lemma LInv_lput W i t p b b' :
  LInv W -> alive (l_w W) i t -> holdsb (lheap W) t p b -> length b' = length b -> LInv (lput W (hput (lheap W) p b')).
Proof.
  intros HI Ha Hb E. pose proof (LInv_fs W i t HI Ha) as [f Hf].
  pose proof (LInv_lset W _ i t t (l_kind f) (l_init f) HI Ha (local_hput _ _ _ _ _ Hb E)) as H.
  assert (X : raw t = None -> alloc_shape t = []). { destruct Hb as [R _]. congruence. }
  specialize (H X). unfold lset, put in H.
  assert (Es : forall A (l : list A) k x, nth_error l k = Some x -> set_nth k x l = l).
  { intros A l. induction l as [|z l IH]; intros [|k] x; simpl; try discriminate; [congruence|intros; f_equal; auto]. }
  rewrite (Es _ (w_ts (l_w W)) i (Some t) Ha), (Es _ (l_fs W) i) in H; [exact H|]. destruct f; exact Hf.
Qed.

(** observation in terms of heap cells *)
Lemma observe_holds W i t p b k :
  alive (l_w W) i t -> holdsb (lheap W) t p b -> nth_error (l_fs W) i = Some (mkLeaf k true) ->
  observe W i = Ok (Some (alloc_shape t, b)).
Proof.
  intros Ha H Hf. unfold observe, leaf_eval, lf. rewrite (rd_ok _ _ _ Hf), (lookup_ok _ _ _ Ha). cbn [bind l_init].
  rewrite (holdsb_expose _ _ _ _ H), (holdsb_shape _ _ _ _ H). reflexivity.
Qed.

Lemma observe_null W i t k :
  alive (l_w W) i t -> nth_error (l_fs W) i = Some (mkLeaf k false) -> observe W i = Ok None.
Proof. intros Ha Hf. unfold observe, leaf_eval, lf. now rewrite (rd_ok _ _ _ Hf), (lookup_ok _ _ _ Ha). Qed.

Lemma observe_inv W i s d : LInv W -> observe W i = Ok (Some (s, d)) ->
  exists t p k, alive (l_w W) i t /\ holdsb (lheap W) t p d /\ nth_error (l_fs W) i = Some (mkLeaf k true) /\ alloc_shape t = s.
Proof.
  intros HI E. unfold observe, leaf_eval, lf in E.
  destruct (rd (l_fs W) i) as [f| | |] eqn:Ef; try discriminate. cbn [bind] in E. apply rd_Ok_inv in Ef.
  destruct (lookup (l_w W) i) as [t| | |] eqn:Et; try discriminate. cbn [bind] in E. apply lookup_inv in Et.
  destruct f as [k [|]]; cbn [l_init] in E; [|discriminate].
  destruct (is_alloc t) eqn:A.
  - destruct (wf_holdsb _ _ (LInv_wf _ _ _ HI Et) A) as [p [b H]].
    rewrite (holdsb_expose _ _ _ _ H), (holdsb_shape _ _ _ _ H) in E. cbn [bind] in E.
    injection E as <- <-. exists t, p, k. auto.
  - unfold t_expose in E. rewrite A in E. discriminate.
Qed.

(** frames *)
Lemma expose_frame W t0 h' t0' k tk : LInv W -> alive (l_w W) k tk ->
  local (lheap W) t0 h' t0' -> (forall p, raw t0 = Some p -> raw tk <> Some p) ->
  t_expose h' tk = t_expose (lheap W) tk.
Proof.
  intros HI Ha [L1 [L2 _]] Hne. unfold t_expose. destruct (is_alloc tk); auto. cbn [assert_ bind].
  destruct (raw tk) as [p|] eqn:R; auto. pose proof (LInv_wf _ _ _ HI Ha p R) as [b [Hb _]].
  unfold hget. rewrite L2; auto.
  - now apply nth_error_lt in Hb.
  - intros E. apply (Hne p E). reflexivity.
Qed.

Lemma observe_frame_lset W h' i t t' k0 b0 : LInv W -> alive (l_w W) i t -> local (lheap W) t h' t' ->
  others_same W (lset W h' i t' k0 b0) i.
Proof.
  intros HI Ha Lc k Hk Hlt. unfold observe, leaf_eval, lf.
  assert (Ef : rd (l_fs (lset W h' i t' k0 b0)) k = rd (l_fs W) k). { unfold rd, lset; cbn [l_fs]. now rewrite nth_error_set_nth_neq by auto. }
  assert (Et : lookup (l_w (lset W h' i t' k0 b0)) k = lookup (l_w W) k). { unfold lookup, lset, put; cbn [l_w w_ts]. now rewrite nth_error_set_nth_neq by auto. }
  rewrite Ef, Et. destruct (rd (l_fs W) k) as [f| | |]; cbn [bind]; auto.
  destruct (lookup (l_w W) k) as [tk| | |] eqn:Hl; cbn [bind]; auto. apply lookup_inv in Hl.
  destruct (l_init f); auto. unfold lset at 1, lheap at 1, put; cbn [l_w w_heap].
  rewrite (expose_frame W t h' t' k tk HI Hl Lc); auto.
  intros p Hp. apply (Inv_raw_neq (l_w W) i k t tk p); auto. apply HI.
Qed.

Lemma observe_frame_lnew W h' t' k0 b0 k : LInv W -> local (lheap W) blank h' t' -> k < length (l_fs W) ->
  observe (lnew W h' t' k0 b0) k = observe W k.
Proof.
  intros HI Lc Hlt. unfold observe, leaf_eval, lf. pose proof HI as [_ [HL _]].
  assert (Ef : rd (l_fs (lnew W h' t' k0 b0)) k = rd (l_fs W) k). { unfold rd, lnew; cbn [l_fs]. now rewrite nth_error_app1 by auto. }
  assert (Et : lookup (l_w (lnew W h' t' k0 b0)) k = lookup (l_w W) k). { unfold lookup, lnew, TensorModel.add; cbn [l_w w_ts]. now rewrite nth_error_app1 by lia. }
  rewrite Ef, Et. destruct (rd (l_fs W) k) as [f| | |]; cbn [bind]; auto.
  destruct (lookup (l_w W) k) as [tk| | |] eqn:Hl; cbn [bind]; auto. apply lookup_inv in Hl.
  destruct (l_init f); auto. unfold lnew at 1, lheap at 1, TensorModel.add; cbn [l_w w_heap].
  rewrite (expose_frame W blank h' t' k tk HI Hl Lc); auto. discriminate.
Qed.

Lemma observe_frame_lput W i t p b b' : LInv W -> alive (l_w W) i t -> holdsb (lheap W) t p b -> length b' = length b ->
  others_same W (lput W (hput (lheap W) p b')) i.
Proof.
  intros HI Ha Hb E k Hk Hlt. unfold observe, leaf_eval, lf, lput; cbn [l_fs l_w].
  destruct (rd (l_fs W) k) as [f| | |]; cbn [bind]; auto.
  unfold lookup at 1; cbn [w_ts]. change (match nth_error (w_ts (l_w W)) k with Some (Some t0) => Ok t0 | _ => UB end) with (lookup (l_w W) k).
  destruct (lookup (l_w W) k) as [tk| | |] eqn:Hl; cbn [bind]; auto. apply lookup_inv in Hl.
  destruct (l_init f); auto. unfold lheap at 1; cbn [l_w w_heap].
  rewrite (expose_frame W t _ t k tk HI Hl (local_hput _ _ _ _ _ Hb E)); auto.
  intros q Hq. apply (Inv_raw_neq (l_w W) i k t tk q); auto. apply HI.
Qed.

Lemma alive_lset W h' i t t' k b : alive (l_w W) i t -> alive (l_w (lset W h' i t' k b)) i t'.
Proof. intros H. unfold lset; cbn [l_w]. eapply alive_put; eauto. Qed.

Lemma fs_lset W h' i t' k b : i < length (l_fs W) -> nth_error (l_fs (lset W h' i t' k b)) i = Some (mkLeaf k b).
Proof. intros H. cbn [lset l_fs]. now apply nth_error_set_nth_eq. Qed.

Lemma local_trans_put h t h1 t1 p b b' : local h t h1 t1 -> holdsb h1 t1 p b -> length b' = length b ->
  local h t (hput h1 p b') t1.
Proof.
  intros [L1 [L2 [L3 L4]]] H E. pose proof (holdsb_put _ _ _ _ _ H E) as H'. pose proof H as [R [Hp [L D]]]. destruct H' as [_ [Hp' [L' _]]].
  assert (Len : length (hput h1 p b') = length h1) by (unfold hput; now rewrite length_set_nth).
  split; [lia|]. split; [|split].
  - intros q Hq Hne. rewrite <- L2 by auto. unfold hput. apply nth_error_set_nth_neq. intros <-.
    destruct (L4 p R) as [[Hge|Hr] _]; [lia|congruence].
  - intros q c Hq Hor. destruct (Nat.eq_dec p q) as [<-|Hne]; auto.
    unfold hput in Hq. rewrite nth_error_set_nth_neq in Hq by auto. apply (L3 q c); auto.
  - intros q Hq. assert (q = p) by congruence. subst q. destruct (L4 p R) as [Hor _]. split; auto. exists b'. auto.
Qed.

(** the state after writing an initialised value into leaf [i] *)
Lemma write_back W i t h1 t1 p b b' k :
  LInv W -> alive (l_w W) i t -> local (lheap W) t h1 t1 -> holdsb h1 t1 p b -> length b' = length b ->
  let W' := lset W (hput h1 p b') i t1 k true in
  LInv W' /\ observe W' i = Ok (Some (alloc_shape t1, b')) /\ others_same W W' i.
Proof.
  intros HI Ha Lc Hb E W'. pose proof (local_trans_put _ _ _ _ _ _ _ Lc Hb E) as Lc'.
  pose proof (holdsb_put _ _ _ _ _ Hb E) as Hb'. split; [|split].
  - apply (LInv_lset W _ i t); auto. destruct Hb as [R _]. congruence.
  - eapply (observe_holds W' i t1 p b' k); auto.
    + unfold W'. eapply alive_lset; eauto.
    + apply fs_lset. destruct (LInv_fs _ _ _ HI Ha) as [f Hf]. now apply nth_error_lt in Hf.
  - apply (observe_frame_lset W _ i t); auto.
Qed.

Lemma new_leaf W h1 t1 p b b' k :
  LInv W -> local (lheap W) blank h1 t1 -> holdsb h1 t1 p b -> length b' = length b ->
  let W' := lnew W (hput h1 p b') t1 k true in
  LInv W' /\ observe W' (length (l_fs W)) = Ok (Some (alloc_shape t1, b')) /\
  (forall j, j < length (l_fs W) -> observe W' j = observe W j).
Proof.
  intros HI Lc Hb E W'. pose proof (local_trans_put _ _ _ _ _ _ _ Lc Hb E) as Lc'.
  pose proof (holdsb_put _ _ _ _ _ Hb E) as Hb'. pose proof HI as [_ [HL _]]. split; [|split].
  - apply LInv_lnew; auto. destruct Hb as [R _]. congruence.
  - eapply (observe_holds W' _ t1 p b' k); auto.
    + unfold alive, W', lnew, TensorModel.add; cbn [l_w w_ts]. rewrite HL, nth_error_app2, Nat.sub_diag by lia. reflexivity.
    + cbn [lnew l_fs W']. rewrite nth_error_app2, Nat.sub_diag by lia. reflexivity.
  - intros j Hj. apply observe_frame_lnew; auto.
Qed.

Lemma t_new_holds h s : is_fully_defined s = true ->
  exists h1 t1 p b, t_new junk h s = (h1, t1) /\ local h blank h1 t1 /\ holdsb h1 t1 p b /\ alloc_shape t1 = s /\ allowed_shape t1 = s.
Proof.
  intros F. destruct (t_new_ok junk h s) as [L H]. destruct (H F) as [p [R Hp]].
  destruct (t_new junk h s) as [h1 t1] eqn:E. cbn [fst snd] in *. unfold t_new in E. rewrite F in E. cbn [halloc] in E. injection E as <- <-.
  eexists _, _, p, _. split; [reflexivity|]. split; auto. split; [|auto]. split; auto. split; [exact Hp|]. cbn [alloc_shape].
  rewrite repeat_length. split; auto. now apply is_fully_defined_iff.
Qed.

Lemma t_new_unalloc h s : is_fully_defined s = false -> t_new junk h s = (h, mkT None [] s).
Proof. intros F. unfold t_new. now rewrite F. Qed.

Lemma allocate_holds h t s : wf h t -> is_alloc t = false -> is_fully_defined s = true -> is_compatible_with s (allowed_shape t) = Ok true ->
  exists h1 t1 p b, t_allocate_shape zero junk h t s = Ok (h1, t1, true) /\ local h t h1 t1 /\ holdsb h1 t1 p b /\
    alloc_shape t1 = s /\ allowed_shape t1 = allowed_shape t.
Proof.
  intros W A F C. destruct (t_allocate_shape_ok zero junk h t s W) as [h1 [t1 [ok [E [L [Al [Hf Ht]]]]]]].
  assert (ok = true).
  { unfold t_allocate_shape in E. destruct (compat_total s (alloc_shape t)) as [c1 E1]. rewrite E1, C, A, F in E. cbn [bind andb halloc] in E. congruence. }
  subst ok. destruct (Ht eq_refl) as [D [Es [_ Ha]]].
  assert (W1 : wf h1 t1). { intros q Hq. destruct L as [_ [_ [_ L4]]]. destruct (L4 q Hq) as [_ [b Hb]]. exists b. exact Hb. }
  destruct (wf_holdsb h1 t1 W1 Ha) as [p [b Hb]]. exists h1, t1, p, b. auto.
Qed.

Lemma local_wf h t h' t' : local h t h' t' -> wf h' t'.
Proof. intros [_ [_ [_ L4]]] p Hp. destruct (L4 p Hp) as [_ H]. exact H. Qed.

Lemma local_refl h t : wf h t -> local h t h t.
Proof. intros. apply local_same; auto. Qed.

Lemma local_none h t h' t' : local h t h' t' -> raw t = None -> local h blank h' t'.
Proof. intros [L1 [L2 [L3 L4]]] R. split; auto. split; [|split].
  - intros p Hp _. apply L2; auto. congruence.
  - intros p b Hp [H|H]; [|discriminate]. eapply L3; eauto.
  - intros p Hp. destruct (L4 p Hp) as [[H|H] H2]; [auto|congruence].
Qed.

Lemma local_blank_trans h h1 t1 h2 t2 : local h blank h1 t1 -> local h1 t1 h2 t2 -> local h blank h2 t2.
Proof.
  intros [A1 [A2 [A3 A4]]] [B1 [B2 [B3 B4]]]. split; [lia|]. split; [|split].
  - intros p Hp _. rewrite B2; [apply A2; auto; discriminate|lia|]. intros R. destruct (A4 p R) as [[|] _]; [lia|discriminate].
  - intros p b Hp [H|H]; [|discriminate]. destruct (raw t1) as [q|] eqn:R.
    + destruct (Nat.eq_dec q p) as [->|Hne]; [apply (B3 p b); auto|].
      destruct (Nat.lt_ge_cases p (length h1)); [|apply (B3 p b); auto].
      rewrite B2 in Hp by (auto; congruence). specialize (A3 p b Hp (or_introl H)). congruence.
    + destruct (Nat.lt_ge_cases p (length h1)); [|apply (B3 p b); auto].
      rewrite B2 in Hp by (auto; congruence). specialize (A3 p b Hp (or_introl H)). congruence.
  - intros p Hp. destruct (B4 p Hp) as [[H|H] H2]; split; auto; left; [lia|]. destruct (A4 p H) as [[|] _]; [auto|discriminate].
Qed.

(** ---- constants ---- *)

Lemma const_scalar_ok h v : exists h1 t1 p b, const_scalar zero junk h v = Ok (hput h1 p [v], t1) /\
  local h blank h1 t1 /\ holdsb h1 t1 p b /\ length [v] = length b /\ alloc_shape t1 = [1].
Proof.
  destruct (t_new_holds h [1] eq_refl) as [h1 [t1 [p [b [E [L [H [Es _]]]]]]]].
  exists h1, t1, p, b. unfold const_scalar. rewrite E. unfold t_allocate. rewrite (holdsb_alloc _ _ _ _ H). cbn [bind].
  rewrite (run_init_ok _ _ _ _ _ H), Es. cbn [bind]. split; auto. split; auto. split; auto. split; auto.
  destruct H as [_ [_ [-> _]]]. now rewrite Es.
Qed.

Lemma zipw_snd (b d : list T) : length b <= length d -> zipw (fun _ y => y) b d = firstn (length b) d.
Proof. intros H. unfold zipw. revert d H. induction b as [|x b IH]; intros [|y d] H; simpl in *; auto; try lia. f_equal. apply IH. lia. Qed.

Definition padded (n : nat) (d : list T) : list T := firstn n d ++ repeat zero (n - length d).

Lemma length_padded n d : length (padded n d) = n.
Proof. unfold padded. rewrite app_length, firstn_length, repeat_length. lia. Qed.

Lemma firstn_pad (n m : nat) (d : list T) : n <= length d + m -> firstn n (d ++ repeat zero m) = padded n d.
Proof.
  intros H. unfold padded. rewrite firstn_app. f_equal.
  assert (G : forall a b, a <= b -> firstn a (repeat zero b) = repeat zero a).
  { induction a as [|a IH]; intros [|b] Hab; simpl; auto; try lia. f_equal. apply IH. lia. }
  apply G. lia.
Qed.

Lemma const_vector_alloc h d s : is_fully_defined s = true ->
  exists h1 t1 p b, const_vector zero junk h d s = Ok (hput h1 p (padded (n_elems s) d), t1) /\
    local h blank h1 t1 /\ holdsb h1 t1 p b /\ length (padded (n_elems s) d) = length b /\ alloc_shape t1 = s.
Proof.
  intros F. destruct (t_new_holds h s F) as [h1 [t1 [p [b [E [L [H [Es _]]]]]]]].
  exists h1, t1, p, b. unfold const_vector. rewrite E, (holdsb_alloc _ _ _ _ H). cbn [bind assert_].
  rewrite (holdsb_alloc _ _ _ _ H). cbn [assert_ bind]. rewrite (holdsb_nelems _ _ _ _ H), Es.
  set (d' := if length d <? n_elems s then d ++ repeat zero (n_elems s - length d) else d).
  assert (Ld : n_elems s <= length d').
  { unfold d'. destruct (Nat.ltb_spec (length d) (n_elems s)); auto. rewrite app_length, repeat_length. lia. }
  rewrite (assign_vector_ok _ _ _ _ _ _ H) by (rewrite Es; auto). cbn [bind].
  pose proof H as [_ [_ [Lb _]]]. rewrite Es in Lb. rewrite zipw_snd by lia. rewrite Lb.
  assert (E2 : firstn (n_elems s) d' = padded (n_elems s) d).
  { unfold d'. destruct (Nat.ltb_spec (length d) (n_elems s)).
    - apply firstn_pad. lia.
    - unfold padded. replace (n_elems s - length d) with 0 by lia. now rewrite app_nil_r. }
  rewrite E2. split; auto. split; auto. split; auto. split; [rewrite length_padded; auto|auto].
Qed.

Lemma completes_compat s s' : s <> [] -> completes s s' -> is_compatible_with s' s = Ok true.
Proof.
  intros Hne [_ HC]. destruct s as [|a al]; [congruence|]. apply compat_same_rank_iff.
  - clear - HC. induction HC; cbn; auto.
  - clear - HC. induction HC; constructor; auto. unfold dim_agree. lia.
Qed.

Lemma const_vector_guess h d s : s <> [] -> is_fully_defined s = false ->
  exists s' h1 t1 p b, const_vector zero junk h d s = Ok (hput h1 p (padded (n_elems s') d), t1) /\
    local h blank h1 t1 /\ holdsb h1 t1 p b /\ length (padded (n_elems s') d) = length b /\ alloc_shape t1 = s' /\
    completes s s' /\ length d <= n_elems s' /\ n_elems s' < Nat.max (length d) (n_known s) + n_known s.
Proof.
  intros Hne F. pose proof (t_new_unalloc h s F) as E.
  set (d1 := if length d <? n_known s then d ++ repeat zero (n_known s - length d) else d).
  assert (Hk : 0 < n_known s).
  { rewrite n_known_spec by auto. apply prod_pos. apply Forall_forall. intros x Hx. apply filter_In in Hx. destruct Hx as [_ Hx]. apply negb_true_iff, Nat.eqb_neq in Hx. lia. }
  assert (Ld1 : length d1 = Nat.max (length d) (n_known s)).
  { unfold d1. destruct (Nat.ltb_spec (length d) (n_known s)); [rewrite app_length, repeat_length|]; lia. }
  destruct (C13_loosely_guess_holds_data_lemma s (length d1) Hne ltac:(lia)) as [r [Eg [Hs Hn]]].
  destruct r as [s'|]; [|destruct (proj1 Hn eq_refl) as [X _]; congruence].
  destruct (Hs s' eq_refl) as [HC [Hle Hlt]]. specialize (Hlt F).
  assert (W0 : wf h (mkT None [] s)) by (intros q; discriminate).
  assert (F' : is_fully_defined s' = true) by (apply is_fully_defined_iff; apply HC).
  destruct (allocate_holds h (mkT None [] s) s' W0 (is_alloc_none _ _) F') as [h1 [t1 [p [b [Ea [L [H [Es Al]]]]]]]].
  { apply completes_compat; auto. }
  exists s', h1, t1, p, b. unfold const_vector. rewrite E, is_alloc_none. cbn [allowed_shape]. fold d1. rewrite Eg. cbn [bind].
  rewrite Ea. cbn [bind]. rewrite (holdsb_alloc _ _ _ _ H). cbn [assert_ bind]. rewrite (holdsb_nelems _ _ _ _ H), Es.
  set (d2 := if length d <? n_elems s' then d1 ++ repeat zero (n_elems s' - length d) else d1).
  assert (Ld2 : n_elems s' <= length d2).
  { unfold d2. destruct (Nat.ltb_spec (length d) (n_elems s')); [rewrite app_length, repeat_length|]; lia. }
  rewrite (assign_vector_ok _ _ _ _ _ _ H) by (rewrite Es; auto). cbn [bind].
  pose proof H as [_ [_ [Lb _]]]. rewrite Es in Lb. rewrite zipw_snd by lia. rewrite Lb.
  assert (E2 : firstn (n_elems s') d2 = padded (n_elems s') d).
  { assert (X : exists m, d2 = d ++ repeat zero m).
    { unfold d2, d1. destruct (Nat.ltb_spec (length d) (n_known s)), (Nat.ltb_spec (length d) (n_elems s')).
      - eexists. rewrite <- app_assoc, <- repeat_app. reflexivity.
      - eexists. reflexivity.
      - eexists. reflexivity.
      - exists 0. now rewrite app_nil_r. }
    destruct X as [m X]. rewrite X. apply firstn_pad. rewrite X, app_length, repeat_length in Ld2. lia. }
  rewrite E2. split; auto. split; [eapply local_none; eauto|]. split; auto. split; [rewrite length_padded; auto|]. split; auto. split; auto. split; [lia|].
  rewrite Ld1 in Hlt. exact Hlt.
Qed.

(** ---- placeholder = vector ---- *)

Lemma completes_defined_eq s s' : defined s -> completes s s' -> s' = s.
Proof.
  intros [Hne Hp] [_ H]. destruct s as [|a al]; [congruence|]. clear Hne. revert Hp.
  induction H as [|x y l l' Hxy H IH]; auto; intros Hp. inversion Hp; subst. rewrite IH by auto. f_equal. lia.
Qed.

Lemma completes_refl s : defined s -> completes s s.
Proof. intros D. split; auto. destruct s; [destruct D; congruence|]. clear D. induction (n :: s); constructor; auto. Qed.

Lemma ph_assign_ok h t d s' :
  wf h t -> completes (get_shape t) s' -> n_elems s' = length d ->
  exists h1 t1 p b s1, ph_assign zero junk h t d = Ok (hput h1 p d, t1) /\ local h t h1 t1 /\ holdsb h1 t1 p b /\
    length d = length b /\ alloc_shape t1 = s1 /\ completes (get_shape t) s1 /\ n_elems s1 = length d.
Proof.
  intros W HC Hn.
  assert (Fin : forall h1 t1 p b, holdsb h1 t1 p b -> n_elems (alloc_shape t1) = length d ->
     assign_vector h1 t1 d (fun _ y => y) = Ok (hput h1 p d)).
  { intros h1 t1 p b H En. rewrite (assign_vector_ok _ _ _ _ _ _ H) by lia. pose proof H as [_ [_ [Lb _]]].
    rewrite zipw_snd by lia. rewrite Lb, En, firstn_all. reflexivity. }
  unfold ph_assign. destruct (is_alloc t) eqn:A.
  - destruct (wf_holdsb h t W A) as [p [b H]]. pose proof H as [_ [_ [Lb D]]].
    rewrite (holdsb_shape _ _ _ _ H) in *. pose proof (completes_defined_eq _ _ D HC) as ->.
    unfold t_compat_data. rewrite A, (proj2 (is_fully_defined_iff _) D), Hn, Nat.eqb_refl. cbn [assert_ bind].
    rewrite (Fin h t p b H Hn). cbn [bind]. exists h, t, p, b, (alloc_shape t).
    split; auto. split; [now apply local_refl|]. split; auto. split; [congruence|]. auto.
  - assert (Gs : get_shape t = allowed_shape t) by (unfold get_shape; now rewrite A). rewrite Gs in *.
    assert (Hpos : 0 < length d). { rewrite <- Hn. destruct HC as [D _]. rewrite n_elems_prod by apply D. apply prod_pos. apply D. }
    destruct (C13_guess_shape_sound_complete_lemma (allowed_shape t) (length d) Hpos) as [r [Eg [Hs Hno]]].
    destruct r as [g|]; [|exfalso; exact (Hno eq_refl s' HC Hn)].
    destruct (Hs g eq_refl) as [HCg [Eng Cg]].
    assert (Ec : t_compat_data t (length d) = true). { apply (C13_compatible_data_iff_guess_lemma t (length d)); eauto. }
    rewrite Ec, Eg. cbn [assert_ bind].
    destruct (allocate_holds h t g W A) as [h1 [t1 [p [b [Ea [L [H [Es Al]]]]]]]]; auto.
    { apply is_fully_defined_iff. apply HCg. }
    rewrite Ea. cbn [bind fst]. rewrite (Fin h1 t1 p b H) by congruence. cbn [bind].
    exists h1, t1, p, b, g. split; auto. split; auto. split; auto. split; [|auto]. destruct H as [_ [_ [Lb _]]]. congruence.
Qed.

Lemma ph_assign_abort h t d :
  wf h t -> (forall s', completes (get_shape t) s' -> n_elems s' <> length d) ->
  ph_assign zero junk h t d = Abort.
Proof.
  intros W HN. unfold ph_assign. destruct (t_compat_data t (length d)) eqn:C; auto. cbn [assert_ bind].
  destruct (is_alloc t) eqn:A.
  - exfalso. destruct (wf_holdsb h t W A) as [p [b H]]. pose proof H as [_ [_ [Lb D]]]. rewrite (holdsb_shape _ _ _ _ H) in *.
    unfold t_compat_data in C. rewrite A, (proj2 (is_fully_defined_iff _) D) in C. apply Nat.eqb_eq in C.
    apply (HN (alloc_shape t)); auto. now apply completes_refl.
  - assert (Gs : get_shape t = allowed_shape t) by (unfold get_shape; now rewrite A). rewrite Gs in *.
    destruct (proj1 (C13_compatible_data_iff_guess_lemma t (length d) (or_introl A)) C) as [g Eg]. rewrite Eg. cbn [bind].
    destruct (Nat.eq_dec (length d) 0) as [E0|].
    + destruct (t_allocate_shape_ok zero junk h t g W) as [h1 [t1 [ok [Ea [L [Al [Hf Ht]]]]]]]. rewrite Ea. cbn [bind fst].
      destruct ok.
      * exfalso. destruct (Ht eq_refl) as [D _]. rewrite E0 in Eg. destruct (is_fully_defined (allowed_shape t)) eqn:F.
        -- rewrite guess_eq, F in Eg. destruct (n_elems (allowed_shape t) =? 0) eqn:Z; [|discriminate]. apply Nat.eqb_eq in Z.
           injection Eg as <-. rewrite n_elems_prod in Z by apply D. pose proof (prod_pos _ (proj2 D)). lia.
        -- destruct (C13_guess_no_data_refuted_lemma (allowed_shape t) F) as [g' [Eg' Fg]]. rewrite Eg in Eg'. injection Eg' as <-.
           apply is_fully_defined_iff in D. congruence.
      * destruct (Hf eq_refl) as [-> ->]. unfold assign_vector, get_raw. rewrite A.
        destruct (n_elems (get_shape t) <=? length d); reflexivity.
    + exfalso. destruct (C13_guess_shape_sound_complete_lemma (allowed_shape t) (length d) ltac:(lia)) as [r [Eg' [Hs Hno]]].
      rewrite Eg in Eg'. injection Eg' as <-. destruct (Hs g eq_refl) as [HC [Hn _]]. exact (HN g HC Hn).
Qed.

(** ---- initialisation ---- *)
Lemma var_initialize_ok h t f : wf h t -> (raw t = None -> alloc_shape t = []) -> defined (get_shape t) ->
  exists h1 t1 p b, var_initialize zero junk h t (Some f) = Ok (hput h1 p (map f (seq 0 (n_elems (get_shape t)))), t1) /\
    local h t h1 t1 /\ holdsb h1 t1 p b /\ length b = n_elems (get_shape t) /\ alloc_shape t1 = get_shape t.
Proof.
  intros W He D. unfold var_initialize. destruct (is_alloc t) eqn:A.
  - destruct (wf_holdsb h t W A) as [p [b H]]. cbn [bind]. rewrite (run_init_ok _ _ _ _ _ H). cbn [bind].
    exists h, t, p, b. rewrite (holdsb_shape _ _ _ _ H). split; auto. split; [now apply local_refl|]. split; auto. split; auto. apply H.
  - assert (Gs : get_shape t = allowed_shape t) by (unfold get_shape; now rewrite A). rewrite Gs in *.
    assert (Al : alloc_shape t = []). { apply He. now apply (wf_not_alloc h). }
    unfold t_allocate. rewrite A, Al. cbn [is_fully_defined].
    destruct (allocate_holds h t (allowed_shape t) W A) as [h1 [t1 [p [b [Ea [L [H [Es _]]]]]]]].
    { now apply is_fully_defined_iff. } { apply compat_refl. }
    rewrite Ea. cbn [bind]. rewrite (run_init_ok _ _ _ _ _ H). cbn [bind]. rewrite Es. exists h1, t1, p, b.
    split; auto. split; auto. split; auto. split; auto. destruct H as [_ [_ [-> _]]]. now rewrite Es.
Qed.

Lemma var_initialize_throw h t f : wf h t -> (raw t = None -> alloc_shape t = []) -> ~ defined (get_shape t) ->
  var_initialize zero junk h t (Some f) = Throw.
Proof.
  intros W He D. unfold var_initialize. destruct (is_alloc t) eqn:A.
  - exfalso. apply D. destruct (wf_holdsb h t W A) as [p [b H]]. rewrite (holdsb_shape _ _ _ _ H). apply H.
  - assert (Gs : get_shape t = allowed_shape t) by (unfold get_shape; now rewrite A). rewrite Gs in *.
    assert (Al : alloc_shape t = []). { apply He. now apply (wf_not_alloc h). }
    unfold t_allocate. rewrite A, Al. cbn [is_fully_defined].
    destruct (t_allocate_shape_ok zero junk h t (allowed_shape t) W) as [h1 [t1 [ok [Ea [L [_ [Hf Ht]]]]]]]. rewrite Ea. cbn [bind].
    destruct ok; auto. exfalso. destruct (Ht eq_refl) as [D' _]. auto.
Qed.

End P.
