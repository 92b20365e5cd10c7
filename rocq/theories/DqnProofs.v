(** Auxiliary lemmas about dq_net. *)
From Coq Require Import Reals Lra Psatz Sorting.Permutation FinFun.
From Verif Require Import Common ShapeModel ShapeSpec ShapeProofs ElemSpec ElemModel NumSpec ElemProofs RealNum ElemLaws DqnModel DqnSpec.
Local Open Scope R_scope.

Lemma every_snoc {A} k (l : list A) e :
  every k (l ++ [e]) = every k l ++ (if (length l mod k =? 0)%nat then [e] else []).
Proof.
  unfold every. rewrite app_length. cbn [length]. rewrite Nat.add_1_r, seq_S. cbn [plus].
  assert (H : combine (seq 0 (length l) ++ [length l]) (l ++ [e]) = combine (seq 0 (length l)) l ++ [(length l, e)]).
  { generalize (seq_length (length l) 0). generalize (seq 0 (length l)). generalize (length l) at 2 3 as n. intros n s.
    revert s. induction l as [|x l IH]; intros [|y s]; cbn; intros H; try lia; auto. rewrite IH by lia. reflexivity. }
  rewrite H, filter_app, map_app. f_equal. cbn. destruct (length l mod k =? 0)%nat; reflexivity.
Qed.

Lemma every_In {A} k (l : list A) e : In e (every k l) -> In e l.
Proof.
  unfold every. rewrite in_map_iff. intros [[i x] [<- H]]. apply filter_In in H as [H _]. apply in_combine_r in H. exact H.
Qed.

(** the memory after the kept experiences [y] *)
Definition memory_of (max : nat) (y : list exp_batch) (mem : list exp_batch) : Prop :=
  ((length y <= max)%nat -> mem = y) /\
  (forall y' e, y = y' ++ [e] -> (max < length y)%nat -> mem = firstn max (e :: tl y)).

Lemma memory_of_nil max : memory_of max [] [].
Proof. split; auto. intros [|x y'] e H; discriminate. Qed.

Lemma memory_of_length max y mem : memory_of max y mem -> (length mem <= max)%nat.
Proof.
  intros [H1 H2]. destruct (Nat.le_gt_cases (length y) max) as [H|H].
  - rewrite H1; auto.
  - destruct (exists_last (l := y)) as [y' [e E]]; [intros ->; cbn in H; lia|].
    rewrite (H2 y' e) by auto. rewrite firstn_length. lia.
Qed.
Lemma memory_of_length_full max y mem : memory_of max y mem -> (max < length y)%nat -> length mem = max.
Proof.
  intros [H1 H2] H. destruct (exists_last (l := y)) as [y' [e E]]; [intros ->; cbn in H; lia|].
  rewrite (H2 y' e) by auto. rewrite firstn_length. cbn [length]. destruct y; cbn in *; lia.
Qed.

Lemma memory_of_In max y mem e : memory_of max y mem -> In e mem -> In e y.
Proof.
  intros [H1 H2] Hin. destruct (Nat.le_gt_cases (length y) max) as [H|H].
  - rewrite H1 in Hin; auto.
  - destruct (exists_last (l := y)) as [y' [x E]]; [intros ->; cbn in H; lia|].
    rewrite (H2 y' x) in Hin by auto. apply (In_nth_error) in Hin as [i Hi].
    assert (Hin : In e (x :: tl y)). { rewrite <- (firstn_skipn max (x :: tl y)). apply in_or_app. left. eapply nth_error_In; eauto. }
    destruct Hin as [<-|Hin]; [rewrite E; apply in_or_app; cbn; auto|]. destruct y; cbn in *; auto.
Qed.

Lemma removelast_firstn_len {A} (l : list A) : removelast l = firstn (length l - 1) l.
Proof. rewrite removelast_firstn_len. f_equal. lia. Qed.

Lemma store_ok d e y : (0 < store_interval (d_par d))%nat -> memory_of (max_exp (d_par d)) y (experiences d) ->
  exists d', store d e = Ok d' /\ d_par d' = d_par d /\ n_store_called d' = S (n_store_called d) /\
    memory_of (max_exp (d_par d)) (y ++ (if (n_store_called d mod store_interval (d_par d) =? 0)%nat then [e] else [])) (experiences d') /\
    n_train_called d' = n_train_called d /\ iteration d' = iteration d /\ actions_executed d' = actions_executed d /\
    source_vars d' = source_vars d /\ target_vars d' = target_vars d /\ fed d' = fed d /\ d_ninput d' = d_ninput d /\ d_noutput d' = d_noutput d.
Proof.
  intros Hk HM. unfold store, umod. destruct (store_interval (d_par d)) as [|k] eqn:Ek; [lia|]. cbn [bind].
  destruct (n_store_called d mod S k =? 0)%nat eqn:Em.
  2:{ cbn [bind]. eexists. split; [reflexivity|]. cbn. rewrite app_nil_r. auto 20. }
  set (mem := experiences d) in *. set (mx := max_exp (d_par d)) in *.
  rewrite app_length. cbn [length]. rewrite Nat.add_1_r.
  destruct (Nat.ltb_spec mx (S (length mem))) as [Hlt|Hge].
  - replace (S (length mem) - 1)%nat with (length mem) by lia.
    rewrite (rd_ok _ (length mem) e) by (rewrite nth_error_app2, Nat.sub_diag by lia; reflexivity). cbn [bind].
    rewrite wr_ok by (rewrite app_length; cbn; lia). cbn [bind]. eexists. split; [reflexivity|]. cbn [d_par n_store_called experiences n_train_called iteration actions_executed source_vars target_vars fed d_ninput d_noutput].
    split; auto. split; auto. split; [|auto 20].
    pose proof (memory_of_length _ _ _ HM) as HL. fold mem mx in HL.
    rewrite removelast_firstn_len, length_set_nth, app_length. cbn [length]. replace (length mem + 1 - 1)%nat with mx by lia.
    assert (Lm : length mem = mx) by lia.
    split.
    { intros H. rewrite app_length in H. cbn [length] in H. exfalso. destruct (Nat.le_gt_cases (length y) mx) as [C|C]; [|lia].
      destruct HM as [HM1 _]. rewrite HM1 in Lm by auto. lia. }
    intros y' e' E _. apply app_inj_tail in E as [<- <-].
    destruct mx as [|m]; [reflexivity|].
    destruct mem as [|a mem]; [discriminate|]. cbn [app set_nth firstn]. f_equal.
    injection Lm as Lm. rewrite firstn_app, Lm, Nat.sub_diag. cbn [firstn]. rewrite app_nil_r, <- Lm at 1. rewrite firstn_all.
    destruct (Nat.le_gt_cases (length y) (S m)) as [C|C].
    + destruct HM as [HM1 _]. rewrite <- HM1 by auto. cbn [tl app]. rewrite firstn_app, Lm, Nat.sub_diag. cbn. rewrite app_nil_r, <- Lm. now rewrite firstn_all.
    + destruct HM as [_ HM2]. destruct (exists_last (l := y)) as [y1 [x Ey]]; [intros ->; cbn in C; lia|].
      specialize (HM2 y1 x Ey C). cbn [firstn] in HM2. injection HM2 as _ HM2. rewrite HM2. destruct y as [|a0 y]; [cbn in C; lia|].
      cbn [tl app]. rewrite firstn_app. cbn [length] in C. replace (m - length y)%nat with 0%nat by lia. cbn. now rewrite app_nil_r.
  - cbn [bind]. eexists. split; [reflexivity|]. cbn. split; auto. split; auto. split; [|auto 20].
    destruct (Nat.le_gt_cases (length y) mx) as [C|C].
    + destruct HM as [HM1 _]. specialize (HM1 C). rewrite HM1. rewrite HM1 in Hge. split; auto. intros y' e' E H. rewrite app_length in H. cbn in H. lia.
    + pose proof (memory_of_length_full _ _ _ HM C). lia.
Qed.

(** the state after a history, except for the networks *)
Definition hist (p : dqn_param) (ops : list dop) (d : dqn) : Prop :=
  d_par d = p /\ n_store_called d = length (stored ops) /\ memory_of (max_exp p) (kept p ops) (experiences d) /\
  actions_executed d = n_actions ops /\
  (train_interval p = 0%nat \/ iteration d = ((n_train_called d + (train_interval p - 1)) / train_interval p)%nat).

Lemma stored_app a b : stored (a ++ b) = stored a ++ stored b.
Proof. induction a as [|[] a IH]; cbn; auto. now rewrite IH. Qed.
Lemma n_actions_app a b : n_actions (a ++ b) = (n_actions a + n_actions b)%nat.
Proof. unfold n_actions. now rewrite filter_app, app_length. Qed.

Lemma ceil_step n k : (0 < k)%nat -> ((S n + (k - 1)) / k = (n + (k - 1)) / k + (if n mod k =? 0 then 1 else 0))%nat.
Proof.
  intros Hk. pose proof (Nat.div_mod n k ltac:(lia)) as E. pose proof (Nat.mod_upper_bound n k ltac:(lia)) as B.
  set (q := (n / k)%nat) in *. set (r := (n mod k)%nat) in *.
  destruct (Nat.eqb_spec r 0) as [R|R].
  - replace (S n + (k - 1))%nat with (0 + (q + 1) * k)%nat by nia. replace (n + (k - 1))%nat with ((k - 1) + q * k)%nat by nia.
    rewrite !Nat.div_add by lia. rewrite Nat.div_0_l, (Nat.div_small (k - 1)) by lia. lia.
  - replace (S n + (k - 1))%nat with (r + (q + 1) * k)%nat by nia. replace (n + (k - 1))%nat with ((r - 1) + (q + 1) * k)%nat by nia.
    rewrite !Nat.div_add by lia. rewrite !Nat.div_small by lia. lia.
Qed.

Lemma train_frame fresh upd d indices d' : train fresh upd d indices = Ok d' ->
  d_par d' = d_par d /\ n_store_called d' = n_store_called d /\ experiences d' = experiences d /\ actions_executed d' = actions_executed d /\
  d_ninput d' = d_ninput d /\ d_noutput d' = d_noutput d /\
  (train_interval (d_par d) <> 0)%nat /\
  ((n_train_called d mod train_interval (d_par d) <> 0)%nat /\ n_train_called d' = S (n_train_called d) /\ iteration d' = iteration d /\
     source_vars d' = source_vars d /\ target_vars d' = target_vars d /\ fed d' = fed d \/
   (n_train_called d mod train_interval (d_par d) = 0)%nat /\ (length (experiences d) < mini_batch_size (d_par d))%nat /\ d' = d \/
   (n_train_called d mod train_interval (d_par d) = 0)%nat /\ (mini_batch_size (d_par d) <= length (experiences d))%nat /\
     n_train_called d' = S (n_train_called d) /\ iteration d' = S (iteration d) /\
     exists samples b, random_sample d indices = Ok samples /\ make_batch (d_ninput d) (d_noutput d) samples = Ok b /\
       fed d' = Some b /\ source_vars d' = upd b (source_vars d) (target_vars d) /\
       target_updates fresh (target_update_rate (d_par d)) (target_vars d) (source_vars d') = Ok (target_vars d')).
Proof.
  unfold train, umod. destruct (train_interval (d_par d)) as [|k] eqn:Ek; [discriminate|]. cbn [bind].
  destruct (Nat.eqb_spec (n_train_called d mod S k) 0) as [Em|Em].
  - destruct (Nat.ltb_spec (length (experiences d)) (mini_batch_size (d_par d))) as [Hl|Hl].
    + intros E. injection E as <-. auto 20.
    + destruct (random_sample d indices) as [samples| | |] eqn:E1; cbn [bind]; try discriminate.
      destruct (make_batch (d_ninput d) (d_noutput d) samples) as [b| | |] eqn:E2; cbn [bind]; try discriminate.
      destruct (target_updates fresh (target_update_rate (d_par d)) (target_vars d) (upd b (source_vars d) (target_vars d))) as [tgt| | |] eqn:E3; cbn [bind]; try discriminate.
      intros E. injection E as <-. cbn. repeat (split; [reflexivity|]). split; [lia|]. right; right. split; auto. split; auto. split; auto. split; auto.
      exists samples, b. auto.
  - intros E. injection E as <-. cbn. repeat (split; [reflexivity|]). split; [lia|]. left. auto 20.
Qed.

Lemma dstep_hist fresh p ops d o d' : hist p ops d -> dstep fresh d o = Ok d' -> hist p (ops ++ [o]) d'.
Proof.
  intros [H1 [H2 [H3 [H4 H5]]]] E. destruct o as [e|upd indices|r1 r2 greedy]; cbn [dstep] in E.
  - assert (Hk : (0 < store_interval (d_par d))%nat).
    { unfold store, umod in E. destruct (store_interval (d_par d)); [discriminate|lia]. }
    rewrite <- H1 in H3. destruct (store_ok d e _ Hk H3) as [d1 [E1 [A1 [A2 [A3 [A4 [A5 [A6 _]]]]]]]]. rewrite E in E1. injection E1 as <-.
    unfold hist. rewrite A1, A2, A4, A5, A6, H2, stored_app, n_actions_app. cbn. rewrite app_length. cbn. split; auto. split; [lia|].
    split; [|split; [unfold n_actions in *; lia|auto]].
    unfold kept. rewrite stored_app. cbn [stored]. rewrite every_snoc. rewrite <- H2, <- H1. exact A3.
  - destruct (train_frame _ _ _ _ _ E) as [A1 [A2 [A3 [A4 [_ [_ [A5 A6]]]]]]].
    unfold hist. unfold kept in *. rewrite A1, A2, A3, A4, stored_app, n_actions_app. cbn [stored]. rewrite !app_nil_r.
    split; auto. split; auto. split; auto. split; [cbn; lia|]. rewrite H1 in *.
    destruct H5 as [H5|H5]; [auto|]. right. destruct A6 as [[B1 [B2 [B3 _]]]|[[B1 [B2 ->]]|[B1 [_ [B2 [B3 _]]]]]]; auto.
    + rewrite B2, B3, H5, ceil_step by lia. apply Nat.eqb_neq in B1. rewrite B1. lia.
    + rewrite B2, B3, H5, ceil_step by lia. apply Nat.eqb_eq in B1. rewrite B1. lia.
  - assert (exists a, action d r1 r2 greedy = Ok (d', a)) as [a Ea].
    { destruct (action d r1 r2 greedy) as [[d1 a]| | |]; try discriminate. cbn in E. injection E as <-. eauto. }
    assert (X : d_par d' = d_par d /\ n_store_called d' = n_store_called d /\ experiences d' = experiences d /\ actions_executed d' = S (actions_executed d) /\ n_train_called d' = n_train_called d /\ iteration d' = iteration d).
    { unfold action in Ea. destruct (Rltb _ _).
      - injection Ea as <- _. cbn. auto 10.
      - destruct (assert_ _); try discriminate. cbn [bind] in Ea. destruct (rd _ _); try discriminate. cbn [bind] in Ea. injection Ea as <- _. cbn. auto 10. }
    destruct X as [A1 [A2 [A3 [A4 [A5 A6]]]]]. unfold hist, kept in *. rewrite A1, A2, A3, A4, A5, A6, stored_app, n_actions_app. cbn [stored]. rewrite app_nil_r.
    split; auto. split; auto. split; auto. split; [cbn; lia|auto].
Qed.

Lemma drun_hist fresh p ops0 d ops d' : hist p ops0 d -> drun fresh d ops = Ok d' -> hist p (ops0 ++ ops) d'.
Proof.
  revert ops0 d. induction ops as [|o ops IH]; intros ops0 d H E; cbn in E.
  - injection E as <-. now rewrite app_nil_r.
  - destruct (dstep fresh d o) as [d1| | |] eqn:E1; try discriminate. cbn in E.
    replace (ops0 ++ o :: ops) with ((ops0 ++ [o]) ++ ops) by now rewrite <- app_assoc.
    apply (IH _ d1); auto. eapply dstep_hist; eauto.
Qed.

Lemma new_hist fresh p ni no vars ops d : drun fresh (dq_new p ni no vars) ops = Ok d -> hist p ops d.
Proof.
  intros E. change ops with ([] ++ ops). eapply drun_hist; [|exact E]. unfold hist. cbn.
  split; auto. split; auto. split; [apply memory_of_nil|]. split; auto.
  destruct (train_interval p) as [|k]; auto. right. rewrite Nat.div_small; lia.
Qed.

Lemma dstep_dims fresh d o d' : dstep fresh d o = Ok d' -> d_ninput d' = d_ninput d /\ d_noutput d' = d_noutput d.
Proof.
  destruct o as [e|upd indices|r1 r2 greedy]; cbn [dstep]; intros E.
  - unfold store in E. destruct (umod _ _); try discriminate. cbn [bind] in E.
    match type of E with bind ?m _ = _ => destruct m as [mem| | |] end; try discriminate. cbn [bind] in E. injection E as <-. auto.
  - destruct (train_frame _ _ _ _ _ E) as [_ [_ [_ [_ [A [B _]]]]]]. auto.
  - unfold action in E. destruct (Rltb _ _); [injection E as <-; auto|].
    destruct (assert_ _); try discriminate. cbn [bind] in E. destruct (rd _ _); try discriminate. cbn [bind] in E. injection E as <-. auto.
Qed.
Lemma drun_dims fresh d ops d' : drun fresh d ops = Ok d' -> d_ninput d' = d_ninput d /\ d_noutput d' = d_noutput d.
Proof.
  revert d. induction ops as [|o ops IH]; intros d E; cbn in E; [injection E as <-; auto|].
  destruct (dstep fresh d o) as [d1| | |] eqn:E1; try discriminate. apply dstep_dims in E1 as [<- <-]. now apply IH.
Qed.

(** ---- random_sample ---- *)
Lemma sample_ok d indices : (mini_batch_size (d_par d) <= length (experiences d))%nat -> shuffle_of (length (experiences d)) indices ->
  exists s, random_sample d indices = Ok s /\ map Some s = map (nth_error (experiences d)) (firstn (mini_batch_size (d_par d)) indices).
Proof.
  intros Hn HP. unfold random_sample. set (k := mini_batch_size (d_par d)) in *. set (mem := experiences d) in *.
  pose proof (Permutation_length HP) as HL. rewrite seq_length in HL.
  destruct (for_inv (fun i s => map Some s = map (nth_error mem) (firstn i indices))
    (fun i r => idx <- rd indices i ;; e <- rd mem idx ;; Ok (r ++ [e])) k []) as [s [E H]]; [reflexivity| |eauto].
  intros j s Hj Hs. destruct (rd_lt indices j) as [idx [Hidx Er]]; [lia|]. rewrite Er. cbn [bind].
  assert (Hin : In idx (seq 0 (length mem))) by (eapply Permutation_in; [exact HP|]; eapply nth_error_In; eauto).
  apply in_seq in Hin. destruct (rd_lt mem idx) as [e [He Ee]]; [lia|]. rewrite Ee. cbn [bind]. eexists. split; [reflexivity|].
  assert (Ef : firstn (S j) indices = firstn j indices ++ [idx]).
  { clear - Hidx. revert j Hidx. induction indices as [|x l IH]; intros [|j] H; cbn in *; try discriminate; [congruence|]. now rewrite IH. }
  rewrite Ef, !map_app, Hs. cbn. now rewrite He.
Qed.

(** ---- make_batch ---- *)
Lemma one_hot_wr n a : (a < n)%nat -> wr (repeat 0 n) a 1 = Ok (one_hot n a).
Proof.
  intros H. rewrite wr_ok by now rewrite repeat_length. f_equal. apply nth_error_ext_lt.
  - unfold one_hot. rewrite length_set_nth, repeat_length, map_length, seq_length. reflexivity.
  - intros i Hi. rewrite length_set_nth, repeat_length in Hi. unfold one_hot. rewrite (map_nth_error _ i (seq 0 n) (d := i)).
    2:{ rewrite nth_error_nth' with (d := 0%nat) by now rewrite seq_length. now rewrite seq_nth. }
    destruct (Nat.eqb_spec i a) as [->|Hne].
    + rewrite nth_error_set_nth_eq; auto. now rewrite repeat_length.
    + rewrite nth_error_set_nth_neq by auto. now apply nth_error_repeat.
Qed.

Definition batch_of (ni no : nat) (l : list exp_batch) : batch :=
  mkB (concat (map observation l)) (concat (map (fun e => one_hot no (action_idx e)) l))
      (concat (map (fun e => match new_observation e with [] => repeat 0 ni | n => n end) l))
      (map (fun e => match new_observation e with [] => 0 | _ => 1 end) l) (map reward l).

Lemma make_batch_ok ni no l : Forall (fun e => action_idx e < no)%nat l -> make_batch ni no l = Ok (batch_of ni no l).
Proof.
  intros H. unfold make_batch.
  destruct (for_inv (fun i b => b = batch_of ni no (firstn i l)) (fun i b => e <- rd l i ;; add_sample ni no e b) (length l) (mkB [] [] [] [] [])) as [b [E Hb]]; [reflexivity| |].
  - intros j b Hj ->. destruct (rd_lt l j) as [e [He Ee]]; [lia|]. rewrite Ee. cbn [bind]. unfold add_sample.
    assert (Ha : (action_idx e < no)%nat) by (rewrite Forall_forall in H; apply H; eapply nth_error_In; eauto).
    rewrite (one_hot_wr _ _ Ha). cbn [bind]. eexists. split; [reflexivity|].
    assert (Ef : firstn (S j) l = firstn j l ++ [e]).
    { clear - He. revert j He. induction l as [|x l IH]; intros [|j] H; cbn in *; try discriminate; [congruence|]. now rewrite IH. }
    rewrite Ef. unfold batch_of. rewrite !map_app, !concat_app. cbn. rewrite !app_nil_r. destruct (new_observation e); reflexivity.
  - rewrite E, Hb, firstn_all. reflexivity.
Qed.

Lemma make_batch_bad ni no l : ~ Forall (fun e => action_idx e < no)%nat l -> make_batch ni no l = UB.
Proof.
  intros H. assert (G : forall pre suf, l = pre ++ suf -> ~ Forall (fun e => action_idx e < no)%nat suf -> forall b,
    forloop (length suf) (length pre) (fun i b => e <- rd l i ;; add_sample ni no e b) b = UB).
  { intros pre suf. revert pre. induction suf as [|e suf IH]; intros pre E Hs b; [exfalso; apply Hs; constructor|].
    cbn [length forloop]. rewrite (rd_ok l (length pre) e) by (rewrite E, nth_error_app2, Nat.sub_diag by lia; reflexivity). cbn [bind].
    unfold add_sample at 1. destruct (Nat.lt_ge_cases (action_idx e) no) as [Ha|Ha].
    - rewrite (one_hot_wr _ _ Ha). cbn [bind]. replace (S (length pre)) with (length (pre ++ [e])) by (rewrite app_length; cbn; lia).
      apply IH; [rewrite E, <- app_assoc; reflexivity|]. intros F. apply Hs. constructor; auto.
    - unfold wr. rewrite repeat_length. destruct (Nat.ltb_spec (action_idx e) no); [lia|]. reflexivity. }
  unfold make_batch, for_. apply (G [] l); auto.
Qed.

(** ---- target updates ---- *)
Lemma map2_length {A B C} (f : A -> B -> C) l r : length l = length r -> length (map2 f l r) = length l.
Proof. revert r. induction l as [|x l IH]; intros [|y r] H; cbn in *; try lia. rewrite IH; lia. Qed.
Lemma map2_nth {A B C} (f : A -> B -> C) l r i x y : nth_error l i = Some x -> nth_error r i = Some y -> nth_error (map2 f l r) i = Some (f x y).
Proof. revert r i. induction l as [|a l IH]; intros [|b r] [|i] H1 H2; cbn in *; try discriminate; [congruence|]. eauto. Qed.

Lemma sub_loop (l r : list R) n : length l = length r -> n = length l ->
  for_ n (fun i d => x <- rd d i ;; y <- rd r i ;; wr d i (x - y)) l = Ok (map2 Rminus l r).
Proof.
  intros HL ->.
  destruct (for_inv (fun i d => length d = length l /\ (forall k, (i <= k)%nat -> nth_error d k = nth_error l k) /\
      (forall k, (k < i)%nat -> nth_error d k = nth_error (map2 Rminus l r) k))
    (fun i d => x <- rd d i ;; y <- rd r i ;; wr d i (x - y)) (length l) l) as [d [E [L [_ H]]]].
  - split; auto. split; auto. intros; lia.
  - intros j d Hj [L [H1 H2]]. destruct (rd_lt l j Hj) as [x [Hx _]]. destruct (rd_lt r j) as [y [Hy Ey]]; [lia|].
    rewrite (rd_ok d j x) by (rewrite H1; auto). cbn [bind]. rewrite Ey. cbn [bind]. rewrite wr_ok by lia. eexists. split; [reflexivity|].
    rewrite length_set_nth. split; auto. split.
    + intros k Hk. rewrite nth_error_set_nth_neq by lia. apply H1. lia.
    + intros k Hk. destruct (Nat.eq_dec k j) as [->|Hne].
      * rewrite nth_error_set_nth_eq by lia. symmetry. now apply map2_nth.
      * rewrite nth_error_set_nth_neq by lia. apply H2. lia.
  - rewrite E. f_equal. apply nth_error_ext_lt; [rewrite map2_length; lia|]. intros i Hi. apply H. lia.
Qed.

Definition blend (rate : R) (x y : R) : R := x - rate * (x - y).

Lemma map_map2 {A B C D} (g : C -> D) (f : A -> B -> C) l r : map g (map2 f l r) = map2 (fun x y => g (f x y)) l r.
Proof. revert r. induction l as [|x l IH]; intros [|y r]; cbn; congruence. Qed.
Lemma map2_map2_l {A B C} (g : A -> C -> A) (f : A -> B -> C) l r : map2 g l (map2 f l r) = map2 (fun x y => g x (f x y)) l r.
Proof. revert r. induction l as [|x l IH]; intros [|y r]; cbn; congruence. Qed.
Lemma map2_ext {A B C} (f g : A -> B -> C) l r : (forall x y, f x y = g x y) -> map2 f l r = map2 g l r.
Proof. intros H. revert r. induction l as [|x l IH]; intros [|y r]; cbn; auto. now rewrite H, IH. Qed.
Lemma map2_fst {A B} (l : list A) (r : list B) : length l = length r -> map2 (fun x _ => x) l r = l.
Proof. revert r. induction l as [|x l IH]; intros [|y r] H; cbn in *; try lia; auto. rewrite IH by lia. reflexivity. Qed.

Section T.
Context (fresh : nat -> R).

Lemma diff_ok (s : shape) (a b : list R) : is_fully_defined s = true -> length a = n_elems s -> length b = n_elems s ->
  exists s', binary_op Rnum fresh BSub false (NOther (s, a)) (NOther (s, b)) = Ok (s', map2 Rminus a b) /\
    is_fully_defined s' = true /\ n_elems s' = n_elems s.
Proof.
  intros F La Lb. unfold binary_op, build_binary. cbn [is_const andb value].
  destruct (C23_binary_pointwise_lemma R fresh (bop_lambda Rnum BSub) s s a b F F La Lb) as [d [E [Ld [Hn Hd]]]]; [right; right; left; reflexivity|].
  specialize (E None (or_introl eq_refl)).
  set (outs := if (length b =? 1)%nat then if (length a =? 1)%nat then [1%nat] else s else s) in *.
  assert (En : n_elems outs = n_elems s) by (rewrite Hn; lia).
  exists outs. split; [|split; auto].
  - etransitivity; [exact E|]. do 2 f_equal. apply nth_error_ext_lt; [rewrite map2_length; lia|]. intros i Hi. destruct (Hd i ltac:(lia)) as [x [y [Hx [Hy Hxy]]]].
    rewrite Hxy. symmetry.
    replace (if (length a =? 1)%nat then 0%nat else i) with i in Hx by (destruct (Nat.eqb_spec (length a) 1); lia).
    replace (if (length b =? 1)%nat then 0%nat else i) with i in Hy by (destruct (Nat.eqb_spec (length b) 1); lia).
    now apply map2_nth.
  - unfold outs. destruct (length b =? 1)%nat; auto. destruct (length a =? 1)%nat; auto.
Qed.

Lemma delta_ok (rate : R) (s : shape) (a b : list R) : is_fully_defined s = true -> length a = n_elems s -> length b = n_elems s ->
  exists t, target_delta fresh rate (s, a) (s, b) = Ok (t, Reqb 0 rate) /\
    (rate = 0 -> t = ([1%nat], [0])) /\
    (rate <> 0 -> n_elems (fst t) = n_elems s /\ snd t = map2 (fun x y => rate * (x - y)) a b).
Proof.
  intros F La Lb. unfold target_delta. destruct (diff_ok s a b F La Lb) as [s' [E [F' En]]]. rewrite E. cbn [bind].
  assert (Ln : length (map2 Rminus a b) = n_elems s') by (rewrite map2_length; lia).
  unfold build_unary. cbn [is_const]. change (n_eqb Rnum) with Reqb. change (n_zero Rnum) with 0. change (n_one Rnum) with 1. change (n_neg Rnum 1) with (-1).
  destruct (Reqb 0 rate) eqn:E0.
  { apply Reqb_iff in E0. subst rate. cbn [bind]. eexists. split; [reflexivity|]. split; auto. intros H; congruence. }
  assert (R0 : rate <> 0) by (intros ->; rewrite (proj2 (Reqb_iff 0 0)) in E0; congruence).
  destruct (Reqb 1 rate) eqn:E1.
  { apply Reqb_iff in E1. subst rate. cbn [bind value]. eexists. split; [reflexivity|]. split; [lra|]. intros _. split; auto.
    cbn [snd]. apply map2_ext. intros; lra. }
  assert (G : forall op, exists t, fold_or_node Rnum fresh op (NOther (s', map2 Rminus a b)) = Ok t /\ n_elems (fst t) = n_elems s /\ snd t = map (fwd_lambda Rnum op) (map2 Rminus a b)).
  { intros op. unfold fold_or_node. cbn [value]. destruct (C23_unary_pointwise_lemma R fresh (fwd_lambda Rnum op) s' (map2 Rminus a b) F' Ln) as [E2 _].
    eexists. split; [exact E2|]. cbn [fst snd]. split; auto. destruct (Nat.eqb_spec (n_elems s') 1); [cbn; lia|auto]. }
  destruct (Reqb (-1) rate) eqn:E2.
  { apply Reqb_iff in E2. destruct (G UNeg) as [t [Et [Hn Hs]]]. rewrite Et. cbn [bind]. exists t. split; auto. split; [lra|]. intros _. split; auto.
    rewrite Hs, map_map2. apply map2_ext. intros. subst rate. cbn. lra. }
  destruct (G (UMulL rate)) as [t [Et [Hn Hs]]]. rewrite Et. cbn [bind]. exists t. split; auto. split; [lra|]. intros _. split; auto.
  rewrite Hs, map_map2. apply map2_ext. reflexivity.
Qed.

Lemma var_update_ok (rate : R) (s : shape) (a b : list R) : is_fully_defined s = true -> length a = n_elems s -> length b = n_elems s ->
  (delta <- target_delta fresh rate (s, a) (s, b) ;; assign_sub (s, a) delta) = Ok (s, map2 (blend rate) a b).
Proof.
  intros F La Lb. destruct (delta_ok rate s a b F La Lb) as [t [E [H0 H1]]]. rewrite E. cbn [bind]. unfold assign_sub.
  destruct (Reqb 0 rate) eqn:E0.
  - apply Reqb_iff in E0. rewrite (H0 (eq_sym E0)). unfold const_is. cbn [snd andb]. change (n_eqb Rnum 0 0) with (Reqb 0 0). rewrite (proj2 (Reqb_iff 0 0) eq_refl).
    do 2 f_equal. unfold blend. rewrite (map2_ext _ (fun x _ => x)) by (intros; subst rate; lra). rewrite map2_fst; auto; lia.
  - assert (R0 : rate <> 0) by (intros ->; rewrite (proj2 (Reqb_iff 0 0)) in E0; congruence).
    destruct (H1 R0) as [Hn Hs]. cbn [andb fst]. rewrite Hn, Nat.eqb_refl. cbn [assert_ bind snd]. rewrite Hs.
    rewrite sub_loop; [|rewrite map2_length; lia|lia]. cbn [bind]. now rewrite map2_map2_l.
Qed.

Lemma target_updates_ok rate tgt src : well_shaped tgt -> well_shaped src -> same_shapes tgt src ->
  target_updates fresh rate tgt src = Ok (map2 (fun t s => (fst t, map2 (blend rate) (snd t) (snd s))) tgt src).
Proof.
  intros Wt Ws HS. assert (HL : length src = length tgt) by (unfold same_shapes in HS; apply (f_equal (@length _)) in HS; rewrite !map_length in HS; auto).
  unfold target_updates. rewrite HL, Nat.eqb_refl. cbn [assert_ bind].
  change (fun t s : tens R => (fst t, map2 (blend rate) (snd t) (snd s))) with (fun t s : tens R => (fst t, map2 (blend rate) (snd t) (snd s)) : tens R).
  set (F := fun (t s : tens R) => (fst t, map2 (blend rate) (snd t) (snd s)) : tens R).
  match goal with |- for_ _ ?body _ = _ => destruct (for_inv (fun i d => length d = length tgt /\ (forall k, (i <= k)%nat -> nth_error d k = nth_error tgt k) /\
      (forall k, (k < i)%nat -> nth_error d k = nth_error (map2 F tgt src) k)) body (length tgt) tgt) as [d [E [L [_ H]]]] end.
  - split; auto. split; auto. intros; lia.
  - intros j d Hj [L [H1 H2]]. destruct (rd_lt tgt j Hj) as [t [Ht _]]. destruct (rd_lt src j) as [s [Hs Es]]; [lia|].
    rewrite (rd_ok d j t) by (rewrite H1; auto). cbn [bind]. rewrite Es. cbn [bind].
    assert (Esh : fst t = fst s).
    { unfold same_shapes in HS. pose proof (map_nth_error fst j tgt Ht) as M1. pose proof (map_nth_error fst j src Hs) as M2. rewrite HS in M1. congruence. }
    pose proof (proj1 (Forall_forall _ _) Wt t (nth_error_In _ _ Ht)) as [F1 L1].
    pose proof (proj1 (Forall_forall _ _) Ws s (nth_error_In _ _ Hs)) as [F2 L2].
    destruct t as [sh a], s as [sh' b]. cbn [fst snd] in *. subst sh'.
    pose proof (var_update_ok rate sh a b F1 L1 L2) as Ev. destruct (target_delta fresh rate (sh, a) (sh, b)) as [dl| | |]; try discriminate. cbn [bind] in *.
    rewrite Ev. cbn [bind]. rewrite wr_ok by lia. eexists. split; [reflexivity|].
    rewrite length_set_nth. split; auto. split.
    + intros k Hk. rewrite nth_error_set_nth_neq by lia. apply H1. lia.
    + intros k Hk. destruct (Nat.eq_dec k j) as [->|Hne].
      * rewrite nth_error_set_nth_eq by lia. symmetry. rewrite (map2_nth _ _ _ _ _ _ Ht Hs). reflexivity.
      * rewrite nth_error_set_nth_neq by lia. apply H2. lia.
  - rewrite E. f_equal. apply nth_error_ext_lt; [rewrite L; symmetry; apply map2_length; auto|]. intros i Hi. apply H. rewrite <- L. exact Hi.
Qed.
End T.
