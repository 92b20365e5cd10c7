(** Property lemmas about dq_net (C41-C43, C50). *)
From Coq Require Import Reals Lra Psatz Sorting.Permutation FinFun.
From Verif Require Import Common ShapeModel ShapeSpec ShapeProofs ElemSpec ElemModel NumSpec ElemProofs RealNum ElemLaws DqnModel DqnSpec DqnProofs.
Local Open Scope R_scope.

(** After any history of calls: while no more than max_exp experiences have been kept, the
    memory holds exactly the kept ones, in order; afterwards it holds the last kept one,
    followed by the second, third, ... max_exp-th kept one. *)
Lemma C41_memory_contents_lemma :
  forall fresh p ninput noutput vars ops d, drun fresh (dq_new p ninput noutput vars) ops = Ok d ->
    ((length (kept p ops) <= max_exp p)%nat -> experiences d = kept p ops) /\
    (forall older newest, kept p ops = older ++ [newest] -> (max_exp p < length (kept p ops))%nat ->
       experiences d = firstn (max_exp p) (newest :: tl (kept p ops))).
Proof. intros fresh p ni no vars ops d E. apply new_hist in E. exact (proj1 (proj2 (proj2 E))). Qed.

(** The memory never exceeds max_exp entries and holds only experiences that were stored. *)
Lemma C41_memory_bounded_lemma :
  forall fresh p ninput noutput vars ops d, drun fresh (dq_new p ninput noutput vars) ops = Ok d ->
    length (experiences d) = Nat.min (max_exp p) (length (kept p ops)) /\
    (forall e, In e (experiences d) -> In e (stored ops)).
Proof.
  intros fresh p ni no vars ops d E. apply new_hist in E as [_ [_ [HM _]]]. split.
  - destruct (Nat.le_gt_cases (length (kept p ops)) (max_exp p)) as [H|H].
    + rewrite (proj1 HM H). lia.
    + rewrite (memory_of_length_full _ _ _ HM H). lia.
  - intros e He. apply (memory_of_In _ _ _ _ HM) in He. eapply every_In; eauto.
Qed.

(** store never fails when store_interval is positive and is undefined (division by zero)
    when it is 0. *)
Lemma C41_store_total_lemma :
  forall fresh p ninput noutput vars ops d e, drun fresh (dq_new p ninput noutput vars) ops = Ok d ->
    ((0 < store_interval p)%nat -> exists d', store d e = Ok d' /\
       (n_store_called d mod store_interval p = 0 -> (0 < max_exp p)%nat -> In e (experiences d'))%nat /\
       ((n_store_called d mod store_interval p <> 0)%nat -> experiences d' = experiences d)) /\
    (store_interval p = 0%nat -> store d e = UB).
Proof.
  intros fresh p ni no vars ops d e E. pose proof (new_hist _ _ _ _ _ _ _ E) as [Hp [Hs [HM _]]]. split.
  - intros Hk. rewrite <- Hp in HM, Hk. destruct (store_ok d e _ Hk HM) as [d' [E' [A1 [A2 [A3 _]]]]]. exists d'. split; auto. rewrite <- Hp. split.
    + intros H0 Hmx. apply Nat.eqb_eq in H0. rewrite H0 in A3.
      destruct (Nat.le_gt_cases (length (kept p ops ++ [e])) (max_exp (d_par d))) as [C|C].
      * rewrite Hp in *. rewrite (proj1 A3 C). apply in_or_app. right. left. reflexivity.
      * rewrite Hp in *. rewrite (proj2 A3 _ _ eq_refl C). destruct (max_exp p); [lia|]. left. reflexivity.
    + intros H0. unfold store, umod in E'. apply Nat.eqb_neq in H0. destruct (store_interval (d_par d)); [lia|]. cbn [bind] in E'. rewrite H0 in E'. cbn [bind] in E'. now injection E' as <-.
  - intros Hk. unfold store, umod. now rewrite Hp, Hk.
Qed.

(** Finding: a full memory does not evict its oldest entry. The second experience ever kept
    stays for ever, and each newly kept experience displaces the previously kept one. *)
Lemma C41_evicts_oldest_refuted_lemma :
  forall fresh p ninput noutput vars ops d, drun fresh (dq_new p ninput noutput vars) ops = Ok d ->
    (max_exp p < length (kept p ops))%nat ->
    (2 <= max_exp p -> nth_error (experiences d) 1 = nth_error (kept p ops) 1)%nat /\
    ((max_exp p + 2 <= length (kept p ops))%nat -> NoDup (kept p ops) -> forall older previous newest,
       kept p ops = older ++ [previous; newest] -> ~ In previous (experiences d)).
Proof.
  intros fresh p ni no vars ops d E Hlt. apply new_hist in E as [_ [_ [HM _]]].
  destruct (exists_last (l := kept p ops)) as [y' [x Ey]]; [intros H; rewrite H in Hlt; cbn in Hlt; lia|].
  pose proof (proj2 HM _ _ Ey Hlt) as Em. split.
  - intros H2. rewrite Em. destruct (kept p ops) as [|a [|b y]]; [cbn in Hlt; lia|cbn in Hlt; lia|]. destruct (max_exp p) as [|[|m]]; [lia|lia|]. reflexivity.
  - intros H2 HN older previous newest Ek Hin. rewrite Em in Hin.
    assert (Ex : x = newest). { rewrite Ek in Ey. change [previous; newest] with ([previous] ++ [newest]) in Ey. rewrite app_assoc in Ey. apply app_inj_tail in Ey as [_ Ey]. congruence. }
    subst x. rewrite Ek in *. clear Em HM.
    assert (Hnew : previous <> newest).
    { intros ->. apply NoDup_remove_2 in HN. apply HN. apply in_or_app. right. left. reflexivity. }
    assert (Hold : ~ In previous older). { apply NoDup_remove_2 in HN. intros H. apply HN. apply in_or_app. auto. }
    destruct (max_exp p) as [|m]; [contradiction|]. cbn [firstn] in Hin. destruct Hin as [H|Hin]; [congruence|].
    rewrite app_length in H2. cbn [length] in H2. destruct older as [|a older]; [cbn in H2; lia|]. cbn [app tl] in Hin.
    rewrite firstn_app in Hin. cbn [length] in H2. replace (m - length older)%nat with 0%nat in Hin by lia. cbn in Hin. rewrite app_nil_r in Hin.
    apply Hold. right. rewrite <- (firstn_skipn m older). apply in_or_app. auto.
Qed.

Definition ex_par : dqn_param := mkP 1 (1 / 10) (9 / 10) (1 / 2) 4 2 2 2.
Lemma C41_nonvacuous_lemma :
  forall (r : nat -> R) (x : R),
    let p := mkP 1 x x x x 2 2 2 in let e k := mkE [r k] 0 (r k) [] in
    exists d, drun (fun _ => x) (dq_new p 1 1 []) (map (fun k => DStore (e k)) (seq 0 9)) = Ok d /\
      kept p (map (fun k => DStore (e k)) (seq 0 9)) = [e 0; e 2; e 4; e 6; e 8]%nat /\
      experiences d = [e 8; e 2]%nat.
Proof.
  intros r x p e.
  match goal with |- exists d, ?c = Ok d /\ _ => let v := eval vm_compute in c in match v with Ok ?h => exists h end end.
  split; [vm_compute; reflexivity|]. split; vm_compute; reflexivity.
Qed.

(** ---- C42 ---- *)
(** The exploration probability: the initial value before any action, the final value from
    the exploration period on, always between the two, and moving monotonically towards the
    final value. *)
Lemma C42_annealing_lemma :
  forall (d d' : dqn) (initial : R),
    let final := rand_action_prob (d_par d) in let period := exploration_period (d_par d) in
    let pr := linear_annealing d initial in
    0 < period ->
    (actions_executed d = 0%nat -> pr = initial) /\
    (period <= INR (actions_executed d) -> pr = final) /\
    Rmin final initial <= pr <= Rmax final initial /\
    (d_par d' = d_par d -> (actions_executed d <= actions_executed d')%nat ->
       Rabs (linear_annealing d' initial - final) <= Rabs (pr - final) /\
       (final <= initial -> final <= linear_annealing d' initial <= pr) /\ (initial <= final -> pr <= linear_annealing d' initial <= final)).
Proof.
  intros d d' initial final period pr Hp.
  assert (F : forall x : dqn, d_par x = d_par d -> exists q, 0 <= q <= 1 /\ linear_annealing x initial = initial + q * (final - initial) /\ (q = INR (actions_executed x) / period /\ INR (actions_executed x) < period \/ q = 1 /\ period <= INR (actions_executed x))).
  { intros x Hx. unfold linear_annealing. rewrite Hx. fold final period. pose proof (pos_INR (actions_executed x)) as Hpos.
    destruct (Rle_dec period (INR (actions_executed x))) as [H|H].
    - exists 1. split; [lra|]. split; [lra|]. auto.
    - exists (INR (actions_executed x) / period). split.
      + split; [apply Rmult_le_pos; [auto|left; now apply Rinv_0_lt_compat]|].
        apply (Rmult_le_reg_r period); auto. unfold Rdiv. rewrite Rmult_assoc, Rinv_l by lra. lra.
      + split; [field; lra|left; split; auto; lra]. }
  destruct (F d eq_refl) as [q [Hq [Eq Cq]]]. fold pr in Eq.
  split; [|split; [|split]].
  - intros H0. destruct Cq as [[Cq _]|[_ C]].
    + rewrite Cq, H0 in Eq. rewrite Eq. cbn [INR]. unfold Rdiv. lra.
    + rewrite H0 in C. cbn [INR] in C. lra.
  - intros H. destruct Cq as [[_ C]|[C _]]; [lra|]. rewrite Eq, C. lra.
  - rewrite Eq. unfold Rmin, Rmax. destruct (Rle_dec final initial); split; nra.
  - intros Hd Hle. destruct (F d' Hd) as [q' [Hq' [Eq' Cq']]].
    assert (Hqq : q <= q').
    { apply le_INR in Hle. destruct Cq' as [[C' C3]|[C' _]]; [|lra]. destruct Cq as [[C _]|[C C2]]; [|lra].
      rewrite C, C'. unfold Rdiv. apply Rmult_le_compat_r; auto. left. now apply Rinv_0_lt_compat. }
    rewrite Eq, Eq'. split; [|split; intros; split; nra].
    replace (initial + q' * (final - initial) - final) with ((1 - q') * (initial - final)) by lra.
    replace (initial + q * (final - initial) - final) with ((1 - q) * (initial - final)) by lra.
    rewrite !Rabs_mult. apply Rmult_le_compat_r; [apply Rabs_pos|]. rewrite !Rabs_right by lra. lra.
Qed.

(** A non-positive exploration period means no annealing. *)
Lemma C42_no_period_lemma :
  forall (d : dqn) (initial : R), exploration_period (d_par d) <= 0 -> linear_annealing d initial = rand_action_prob (d_par d).
Proof.
  intros d initial H. unfold linear_annealing. pose proof (pos_INR (actions_executed d)). destruct (Rle_dec _ _); auto. lra.
Qed.

(** The k-th action of any history (k = 1, 2, ...) explores exactly when the first random
    draw is below the annealed probability of step k; exploring gives a whole number between
    0 and the number of outputs, otherwise the action is the first element of the argmax. *)
Lemma C42_action_lemma :
  forall fresh p ninput noutput vars ops d r1 r2 greedy,
    drun fresh (dq_new p ninput noutput vars) ops = Ok d -> (0 < noutput)%nat -> 0 <= r2 < 1 -> greedy <> [] ->
    exists d' a, action d r1 r2 greedy = Ok (d', a) /\
      actions_executed d' = S (n_actions ops) /\ experiences d' = experiences d /\
      source_vars d' = source_vars d /\ target_vars d' = target_vars d /\
      (r1 < linear_annealing d' 1 -> exists k, (k < noutput)%nat /\ a = INR k /\ a <= r2 * INR noutput < a + 1) /\
      (linear_annealing d' 1 <= r1 -> hd_error greedy = Some a).
Proof.
  intros fresh p ni no vars ops d r1 r2 greedy E Hno Hr Hg. pose proof (proj2 (drun_dims _ _ _ _ E)) as Ed. cbn in Ed. apply new_hist in E as [_ [_ [_ [Ha _]]]].
  unfold action. set (d1 := mkD _ _ _ _ _ _ _ _ _ _ _).
  destruct (Rltb r1 (linear_annealing d1 1)) eqn:Er.
  - eexists d1, _. split; [reflexivity|]. split; [cbn; now rewrite Ha|]. do 3 (split; [reflexivity|]). split.
    + intros _. rewrite Ed. set (x := r2 * INR no). pose proof (base_Int_part x) as [B1 B2].
      assert (Hx : 0 <= x < INR no).
      { apply lt_INR in Hno. cbn in Hno. unfold x. split; [nra|]. nra. }
      assert (Hz : (0 <= Int_part x)%Z). { apply le_IZR. cut (-1 < Int_part x)%Z; [intros C; apply IZR_le; lia|]. apply lt_IZR. lra. }
      assert (Hlt : (Int_part x < Z.of_nat no)%Z). { apply lt_IZR. rewrite <- INR_IZR_INZ. lra. }
      exists (Z.to_nat (Int_part x)). split; [lia|]. rewrite INR_IZR_INZ, Z2Nat.id by auto. split; auto. lra.
    + intros C. apply Rltb_iff in Er. lra.
  - destruct greedy as [|g gs]; [congruence|]. cbn [length Nat.eqb negb assert_ bind rd nth_error]. eexists d1, g. split; [reflexivity|]. split; [cbn; now rewrite Ha|]. do 3 (split; [reflexivity|]). split; auto.
    intros C. apply Rltb_iff in C. congruence.
Qed.

(** Finding: the counter is increased before it is used, so that already the first action
    explores with a probability below the initial one. *)
Lemma C42_first_action_refuted_lemma :
  forall p ninput noutput vars r1 r2 greedy d' a, 1 < exploration_period p -> rand_action_prob p < 1 ->
    action (dq_new p ninput noutput vars) r1 r2 greedy = Ok (d', a) ->
    linear_annealing d' 1 = 1 - (1 - rand_action_prob p) / exploration_period p /\ linear_annealing d' 1 < 1.
Proof.
  intros p ni no vars r1 r2 greedy d' a H1 H2 E.
  assert (X : d_par d' = p /\ actions_executed d' = 1%nat).
  { unfold action in E. destruct (Rltb _ _).
    - injection E as <- _. auto.
    - destruct (assert_ _); try discriminate. cbn [bind] in E. destruct (rd _ _); try discriminate. cbn [bind] in E. injection E as <- _. auto. }
  destruct X as [X1 X2]. unfold linear_annealing. rewrite X1, X2. cbn [INR]. destruct (Rle_dec _ _); [lra|].
  split; [field; lra|]. assert (0 < 1 * (1 - rand_action_prob p) / exploration_period p); [|lra].
  apply Rmult_lt_0_compat; [lra|]. apply Rinv_0_lt_compat. lra.
Qed.

(** random_sample returns mini_batch_size entries of the memory at pairwise different
    positions, and any choice of that many different positions, in any order, can come out. *)
Lemma C42_sample_lemma :
  forall (d : dqn), (mini_batch_size (d_par d) <= length (experiences d))%nat ->
    (forall indices, shuffle_of (length (experiences d)) indices -> exists s pos,
       random_sample d indices = Ok s /\ length s = mini_batch_size (d_par d) /\ NoDup pos /\
       map Some s = map (nth_error (experiences d)) pos) /\
    (forall pos, NoDup pos -> length pos = mini_batch_size (d_par d) -> Forall (fun i => i < length (experiences d))%nat pos ->
       exists indices s, shuffle_of (length (experiences d)) indices /\ random_sample d indices = Ok s /\
         map Some s = map (nth_error (experiences d)) pos).
Proof.
  intros d Hn. split.
  - intros indices HP. destruct (sample_ok d indices Hn HP) as [s [E Es]]. exists s, (firstn (mini_batch_size (d_par d)) indices).
    split; auto. pose proof (Permutation_length HP) as HL. rewrite seq_length in HL. split; [|split; auto].
    + apply (f_equal (@length _)) in Es. rewrite !map_length, firstn_length in Es. lia.
    + assert (HN : NoDup indices) by (eapply Permutation_NoDup; [apply Permutation_sym; exact HP|apply seq_NoDup]).
      rewrite <- (firstn_skipn (mini_batch_size (d_par d)) indices) in HN. clear - HN. induction (firstn _ _) as [|x l IH]; [constructor|].
      cbn in HN. inversion HN; subst. constructor; auto. intros H. apply H1. apply in_or_app. auto.
  - intros pos HN HL HF. set (n := length (experiences d)) in *.
    assert (Hrest : exists rest, Permutation (pos ++ rest) (seq 0 n)).
    { exists (filter (fun i => negb (if in_dec Nat.eq_dec i pos then true else false)) (seq 0 n)).
      apply NoDup_Permutation; [|apply seq_NoDup|].
      - assert (HX : forall x, In x pos -> In x (filter (fun i => negb (if in_dec Nat.eq_dec i pos then true else false)) (seq 0 n)) -> False).
        { intros x Hx Hf. apply filter_In in Hf as [_ Hf]. destruct (in_dec Nat.eq_dec x pos); [discriminate|contradiction]. }
        assert (HY : NoDup (filter (fun i => negb (if in_dec Nat.eq_dec i pos then true else false)) (seq 0 n))) by apply NoDup_filter, seq_NoDup.
        revert HX HY. generalize (filter (fun i => negb (if in_dec Nat.eq_dec i pos then true else false)) (seq 0 n)). intros rest HX HY.
        clear - HN HX HY. induction pos as [|x pos IH]; cbn; auto. inversion HN; subst. constructor.
        + rewrite in_app_iff. intros [C|C]; [contradiction|]. apply (HX x); cbn; auto.
        + apply IH; auto. intros y Hy. apply HX. now right.
      - intros x. rewrite in_app_iff, filter_In. split.
        + intros [H|[H _]]; auto. rewrite Forall_forall in HF. specialize (HF x H). apply in_seq. lia.
        + intros H. destruct (in_dec Nat.eq_dec x pos) as [D|D]; auto. }
    destruct Hrest as [rest HR]. destruct (sample_ok d (pos ++ rest) Hn HR) as [s [E Es]]. exists (pos ++ rest), s. split; auto. split; auto.
    rewrite Es, <- HL, firstn_app, Nat.sub_diag, firstn_all. cbn. now rewrite app_nil_r.
Qed.

Lemma C42_nonvacuous_lemma :
  forall ex_e : nat -> exp_batch,
  let d := mkD ex_par 1 3 2 0 0 0 [ex_e 7%nat; ex_e 8%nat; ex_e 9%nat] [] [] None in
  linear_annealing d 1 = 55 / 100 /\ shuffle_of 3 [2; 0; 1]%nat /\ random_sample d [2; 0; 1]%nat = Ok [ex_e 9%nat; ex_e 7%nat].
Proof.
  intros ex_e. cbn zeta. split; [|split; [|reflexivity]].
  - unfold linear_annealing. cbn. destruct (Rle_dec _ _); [lra|]. lra.
  - unfold shuffle_of. cbn. apply Permutation_trans with [0; 2; 1]%nat; [apply perm_swap|]. apply perm_skip. apply perm_swap.
Qed.

(** ---- C43 ---- *)
(** One round of target updates: every target parameter t becomes (1-alpha)*t + alpha*s,
    where s is the source network's parameter at the same place; shapes are unchanged. *)
Lemma C43_target_update_lemma :
  forall fresh alpha (target source : list (tens R)),
    well_shaped target -> well_shaped source -> same_shapes target source ->
    exists target', target_updates fresh alpha target source = Ok target' /\
      well_shaped target' /\ same_shapes target' source /\
      forall i k t s, param target i k = Some t -> param source i k = Some s ->
        param target' i k = Some ((1 - alpha) * t + alpha * s) /\
        (0 <= alpha <= 1 -> Rmin t s <= (1 - alpha) * t + alpha * s <= Rmax t s).
Proof.
  intros fresh alpha tgt src Wt Ws HS. rewrite (target_updates_ok fresh alpha tgt src Wt Ws HS). eexists. split; [reflexivity|].
  assert (HL : length tgt = length src) by (unfold same_shapes in HS; apply (f_equal (@length _)) in HS; rewrite !map_length in HS; auto).
  assert (Hsh : map fst (map2 (fun t s : tens R => (fst t, map2 (blend alpha) (snd t) (snd s))) tgt src) = map fst tgt).
  { clear - HL. revert src HL. induction tgt as [|t tgt IH]; intros [|s src] H; cbn in *; try lia; auto. rewrite IH; auto. }
  split; [|split].
  - unfold well_shaped, same_shapes in *. clear Hsh HL. revert src Ws HS. induction Wt as [|t tgt [F L] Wt IH]; intros [|s src] Ws HS; cbn in HS; try discriminate; [constructor|].
    inversion Ws as [|? ? [F2 L2] Ws2]; subst. injection HS as Hts HS2. cbn [map2]. constructor; [|auto].
    cbn [fst snd]. split; auto. rewrite map2_length; [auto|]. rewrite L, L2, Hts. reflexivity.
  - unfold same_shapes in *. etransitivity; [exact Hsh|exact HS].
  - intros i k t s Ht Hs. unfold param in *.
    destruct (nth_error tgt i) as [ti|] eqn:Eti; [|discriminate]. destruct (nth_error src i) as [si|] eqn:Esi; [|discriminate].
    rewrite (map2_nth _ _ _ _ _ _ Eti Esi). cbn [snd]. rewrite (map2_nth _ _ _ _ _ _ Ht Hs). split; [unfold blend; f_equal; lra|].
    intros Ha. unfold Rmin, Rmax. destruct (Rle_dec t s); split; nra.
Qed.

Fixpoint iterate_updates (fresh : nat -> R) (alpha : R) (source : list (tens R)) (n : nat) (target : list (tens R)) : res (list (tens R)) :=
  match n with
  | O => Ok target
  | S n => t <- target_updates fresh alpha target source ;; iterate_updates fresh alpha source n t
  end.

(** n rounds with an unchanged source leave the distance (1-alpha)^n (t - s); with
    0 < alpha < 2 it gets and stays below any bound. *)
Lemma C43_converges_lemma :
  forall fresh alpha (target source : list (tens R)),
    well_shaped target -> well_shaped source -> same_shapes target source ->
    forall i k t s, param target i k = Some t -> param source i k = Some s ->
    (forall n, exists target', iterate_updates fresh alpha source n target = Ok target' /\
       param target' i k = Some (s + (1 - alpha) ^ n * (t - s))) /\
    (0 < alpha < 2 -> forall eps, 0 < eps -> exists N, forall n target' x, (N <= n)%nat ->
       iterate_updates fresh alpha source n target = Ok target' -> param target' i k = Some x -> Rabs (x - s) < eps).
Proof.
  intros fresh alpha tgt src Wt Ws HS i k t s Ht Hs.
  assert (G : forall n, exists target', iterate_updates fresh alpha src n tgt = Ok target' /\ param target' i k = Some (s + (1 - alpha) ^ n * (t - s))).
  { intros n. revert tgt t Wt HS Ht. induction n as [|n IH]; intros tgt t Wt HS Ht; cbn [iterate_updates].
    - exists tgt. split; auto. rewrite Ht. f_equal. cbn. lra.
    - destruct (C43_target_update_lemma fresh alpha tgt src Wt Ws HS) as [t1 [E [W1 [S1 H1]]]]. rewrite E. cbn [bind].
      destruct (H1 i k t s Ht Hs) as [P1 _]. destruct (IH t1 _ W1 S1 P1) as [t2 [E2 P2]]. exists t2. split; auto. rewrite P2. f_equal. cbn [pow]. lra. }
  split; auto. intros Ha eps He.
  destruct (Req_dec (t - s) 0) as [Z|Z].
  - exists 0%nat. intros n t' x _ E P. destruct (G n) as [t2 [E2 P2]]. rewrite E in E2. injection E2 as <-. rewrite P in P2. injection P2 as ->.
    rewrite Z. replace (s + (1 - alpha) ^ n * 0 - s) with 0 by lra. rewrite Rabs_R0. auto.
  - assert (Hlt : Rabs (1 - alpha) < 1) by (apply Rabs_def1; lra).
    assert (Hpos : 0 < Rabs (t - s)) by now apply Rabs_pos_lt.
    destruct (pow_lt_1_zero (1 - alpha) Hlt (eps / Rabs (t - s))) as [N HN]; [apply Rdiv_lt_0_compat; auto|].
    exists N. intros n t' x Hn E P. destruct (G n) as [t2 [E2 P2]]. rewrite E in E2. injection E2 as <-. rewrite P in P2. injection P2 as ->.
    replace (s + (1 - alpha) ^ n * (t - s) - s) with ((1 - alpha) ^ n * (t - s)) by lra. rewrite Rabs_mult.
    specialize (HN n Hn). apply (Rmult_lt_compat_r (Rabs (t - s))) in HN; auto. unfold Rdiv in HN. rewrite Rmult_assoc, Rinv_l in HN by lra. lra.
Qed.

(** A training step moves the target network towards the source network as it is after the
    source's own update; a network starts with target equal to source. *)
Lemma C43_train_lemma :
  forall fresh upd (d d' : dqn) indices,
    train fresh upd d indices = Ok d' -> iteration d' <> iteration d ->
    well_shaped (target_vars d) -> well_shaped (source_vars d') -> same_shapes (target_vars d) (source_vars d') ->
    same_shapes (target_vars d') (source_vars d') /\
    forall i k t s, param (target_vars d) i k = Some t -> param (source_vars d') i k = Some s ->
      param (target_vars d') i k = Some ((1 - target_update_rate (d_par d)) * t + target_update_rate (d_par d) * s).
Proof.
  intros fresh upd d d' indices E Hi Wt Ws HS. destruct (train_frame _ _ _ _ _ E) as [_ [_ [_ [_ [_ [_ [_ H]]]]]]].
  destruct H as [[_ [_ [H _]]]|[[_ [_ ->]]|[_ [_ [_ [_ [samples [b [_ [_ [_ [_ Et]]]]]]]]]]]]; try congruence.
  destruct (C43_target_update_lemma fresh (target_update_rate (d_par d)) _ _ Wt Ws HS) as [t1 [E1 [W1 [S1 H1]]]].
  rewrite Et in E1. injection E1 as <-. split; auto. intros i k t s Ht Hs. apply (H1 i k t s Ht Hs).
Qed.

Lemma C43_nonvacuous_lemma :
  exists t', target_updates (fun _ => 0) (1 / 4) [([2%nat], [4; 8])] [([2%nat], [0; 16])] = Ok t' /\
    param t' 0 0 = Some 3 /\ param t' 0 1 = Some 10 /\ well_shaped [([2%nat], [4; 8])].
Proof.
  assert (W1 : well_shaped [([2%nat], [4; 8])]) by (constructor; [split; reflexivity|constructor]).
  assert (W2 : well_shaped [([2%nat], [0; 16])]) by (constructor; [split; reflexivity|constructor]).
  destruct (C43_target_update_lemma (fun _ => 0) (1 / 4) _ _ W1 W2 eq_refl) as [t' [E [_ [_ H]]]]. exists t'. split; auto.
  split; [rewrite (proj1 (H 0%nat 0%nat 4 0 eq_refl eq_refl)); f_equal; lra|]. split; auto.
  rewrite (proj1 (H 0%nat 1%nat 8 16 eq_refl eq_refl)); f_equal; lra.
Qed.

(** ---- C50 ---- *)
(** The number of training steps is the number of counted train calls divided by
    train_interval, rounded up, after any history. *)
Lemma C50_cadence_lemma :
  forall fresh p ninput noutput vars ops d, drun fresh (dq_new p ninput noutput vars) ops = Ok d -> (0 < train_interval p)%nat ->
    iteration d = ((n_train_called d + (train_interval p - 1)) / train_interval p)%nat.
Proof. intros fresh p ni no vars ops d E H. apply new_hist in E as [_ [_ [_ [_ [E|E]]]]]; [lia|auto]. Qed.

(** What one train call does. Not due: only the call is counted. Due but fewer than
    mini_batch_size experiences: nothing, and the call is not counted. Otherwise: one
    step on mini_batch_size different entries of the memory. *)
Lemma C50_train_call_lemma :
  forall fresh upd (d : dqn) indices,
    (0 < train_interval (d_par d))%nat -> shuffle_of (length (experiences d)) indices ->
    Forall (fun e => action_idx e < d_noutput d)%nat (experiences d) ->
    (forall b, well_shaped (upd b (source_vars d) (target_vars d)) /\ same_shapes (target_vars d) (upd b (source_vars d) (target_vars d))) ->
    well_shaped (target_vars d) ->
    exists d', train fresh upd d indices = Ok d' /\ experiences d' = experiences d /\ actions_executed d' = actions_executed d /\
    let due := (n_train_called d mod train_interval (d_par d) = 0)%nat in
    (~ due -> n_train_called d' = S (n_train_called d) /\ iteration d' = iteration d /\
       source_vars d' = source_vars d /\ target_vars d' = target_vars d) /\
    (due -> (length (experiences d) < mini_batch_size (d_par d))%nat -> d' = d) /\
    (due -> (mini_batch_size (d_par d) <= length (experiences d))%nat ->
       n_train_called d' = S (n_train_called d) /\ iteration d' = S (iteration d) /\
       exists b l pos, fed d' = Some b /\ source_vars d' = upd b (source_vars d) (target_vars d) /\
         length l = mini_batch_size (d_par d) /\ NoDup pos /\ map Some l = map (nth_error (experiences d)) pos /\
         b_states b = concat (map observation l) /\
         b_action_mask b = concat (map (fun e => one_hot (d_noutput d) (action_idx e)) l) /\
         b_rewards b = map reward l /\
         b_new_states b = concat (map (fun e => match new_observation e with [] => repeat 0 (d_ninput d) | n => n end) l) /\
         b_new_mask b = map (fun e => match new_observation e with [] => 0 | _ => 1 end) l).
Proof.
  intros fresh upd d indices Hk HP HA Hu Wt.
  assert (T : exists d', train fresh upd d indices = Ok d').
  { unfold train, umod. destruct (train_interval (d_par d)) as [|k] eqn:Ek; [lia|]. cbn [bind].
    destruct (_ =? 0)%nat; [|eauto]. destruct (Nat.ltb_spec (length (experiences d)) (mini_batch_size (d_par d))) as [Hl|Hl]; [eauto|].
    destruct (sample_ok d indices Hl HP) as [s [Es Hs]]. rewrite Es. cbn [bind].
    assert (Fs : Forall (fun e => action_idx e < d_noutput d)%nat s).
    { apply Forall_forall. intros e He. rewrite Forall_forall in HA. apply HA. apply (in_map Some) in He. rewrite Hs in He. apply in_map_iff in He as [i [Hi _]]. eapply nth_error_In; eauto. }
    rewrite (make_batch_ok _ _ _ Fs). cbn [bind]. destruct (Hu (batch_of (d_ninput d) (d_noutput d) s)) as [U1 U2].
    rewrite (target_updates_ok fresh _ _ _ Wt U1 U2). cbn [bind]. eauto. }
  destruct T as [d' E]. exists d'. split; auto. destruct (train_frame _ _ _ _ _ E) as [_ [_ [A3 [A4 [_ [_ [_ H]]]]]]].
  split; auto. split; auto. cbn zeta. split; [|split].
  - intros Hd. destruct H as [[_ [H1 [H2 [H3 [H4 _]]]]]|[[H _]|[H _]]]; auto; contradiction.
  - intros Hd Hl. destruct H as [[H _]|[[_ [_ H]]|[_ [H _]]]]; auto; [contradiction|lia].
  - intros Hd Hl. destruct H as [[H _]|[[_ [H _]]|[_ [_ [H1 [H2 [samples [b [Es [Eb [Hf [Hsrc _]]]]]]]]]]]]; [contradiction|lia|].
    split; auto. split; auto. destruct (proj1 (C42_sample_lemma d Hl) indices HP) as [s [pos [Es2 [L [HN Hs]]]]].
    rewrite Es in Es2. injection Es2 as <-.
    assert (Fs : Forall (fun e => action_idx e < d_noutput d)%nat samples).
    { apply Forall_forall. intros e He. rewrite Forall_forall in HA. apply HA. apply (in_map Some) in He. rewrite Hs in He. apply in_map_iff in He as [i [Hi _]]. eapply nth_error_In; eauto. }
    rewrite (make_batch_ok _ _ _ Fs) in Eb. injection Eb as <-. exists (batch_of (d_ninput d) (d_noutput d) samples), samples, pos.
    cbn [batch_of b_states b_action_mask b_rewards b_new_states b_new_mask]. auto 20.
Qed.

(** Finding: an action index that is not below the number of outputs makes a training step
    that samples it write outside the mask. *)
Lemma C50_action_out_of_range_refuted_lemma :
  forall fresh upd (d : dqn) indices samples e,
    (0 < train_interval (d_par d))%nat -> (n_train_called d mod train_interval (d_par d) = 0)%nat ->
    (mini_batch_size (d_par d) <= length (experiences d))%nat -> random_sample d indices = Ok samples -> In e samples ->
    (d_noutput d <= action_idx e)%nat -> train fresh upd d indices = UB.
Proof.
  intros fresh upd d indices samples e Hk Hd Hl Es Hin He. unfold train, umod. destruct (train_interval (d_par d)) as [|k]; [lia|]. cbn [bind].
  apply Nat.eqb_eq in Hd. rewrite Hd. destruct (Nat.ltb_spec (length (experiences d)) (mini_batch_size (d_par d))); [lia|]. rewrite Es. cbn [bind].
  rewrite make_batch_bad; [reflexivity|]. intros F. rewrite Forall_forall in F. specialize (F e Hin). lia.
Qed.

Lemma C50_nonvacuous_lemma :
  let d := mkD ex_par 1 2 0 0 0 0 [mkE [5] 1 7 []; mkE [6] 0 8 [9]] [([1%nat], [1])] [([1%nat], [3])] None in
  exists d', train (fun _ => 0) (fun _ s _ => s) d [1; 0]%nat = Ok d' /\
    fed d' = Some (mkB [6; 5] [1; 0; 0; 1] [9; 0] [1; 0] [8; 7]) /\ iteration d' = 1%nat.
Proof.
  cbn zeta. unfold train, umod. cbn [d_par ex_par train_interval n_train_called bind Nat.modulo]. cbn -[target_updates].
  assert (W1 : well_shaped [([1%nat], [3])]) by (constructor; [split; reflexivity|constructor]).
  assert (W2 : well_shaped [([1%nat], [1])]) by (constructor; [split; reflexivity|constructor]).
  rewrite (target_updates_ok _ _ _ _ W1 W2 eq_refl). cbn [bind]. eexists. split; [reflexivity|]. split; reflexivity.
Qed.
