(** Property lemmas about tensors (C08 - C15, C49). *)
From Verif Require Import Common ShapeModel ShapeSpec ShapeProofs FitModel FitProofs TensorModel TensorSpec TensorProofs.

(** fit_toshape never leaves its buffers, terminates, copies the common sub-block and
    zeroes the rest; memory past the output shape is untouched. *)
Lemma C08_fit_toshape_lemma :
  forall (T : Type) (zero : T) (dest src : list T) (outs ins : shape),
    is_fully_defined outs = true -> is_fully_defined ins = true ->
    n_elems outs <= length dest -> n_elems ins <= length src ->
    exists dest', fit_toshape zero dest outs src ins = Ok dest' /\
      length dest' = length dest /\
      (forall c, in_bounds outs c -> belongs ins c ->
         offset ins c < n_elems ins /\ nth_error dest' (offset outs c) = nth_error src (offset ins c)) /\
      (forall c, in_bounds outs c -> ~ belongs ins c -> nth_error dest' (offset outs c) = Some zero) /\
      (forall j, n_elems outs <= j -> nth_error dest' j = nth_error dest j).
Proof.
  intros T zero dest src outs ins Ho Hi Hd Hs. apply is_fully_defined_iff in Ho, Hi.
  destruct (fit_toshape_ok zero dest outs src ins Ho Hi Hd Hs) as [d' [E [L [H1 [H2 H3]]]]].
  exists d'. split; auto. split; auto. split; [|split; auto].
  - intros c Hc Hb. split; auto. rewrite H1 by auto. now rewrite (proj2 (belongsb_iff ins c) Hb).
  - intros c Hc Hb. rewrite H1 by auto. destruct (belongsb ins c) eqn:B; auto.
    apply belongsb_iff in B. contradiction.
Qed.

(** fitting to the same shape is a plain copy *)
Lemma C08_fit_same_shape_lemma :
  forall (T : Type) (zero : T) (dest src : list T) (s : shape),
    is_fully_defined s = true -> length dest = n_elems s -> length src = n_elems s ->
    fit_toshape zero dest s src s = Ok src.
Proof.
  intros T zero dest src s Hd Ld Ls. apply is_fully_defined_iff in Hd.
  destruct (fit_toshape_ok zero dest s src s Hd Hd) as [d' [E [L [H1 _]]]]; [lia|lia|].
  rewrite E. f_equal. apply nth_error_ext_lt; [lia|]. intros i Hi.
  assert (Hb : in_bounds s (coords s i)) by (apply coords_in_bounds, Hd).
  assert (Ei : offset s (coords s i) = i).
  { apply offset_coords_lt; [apply Hd|]. rewrite <- n_elems_prod by apply Hd. lia. }
  specialize (H1 _ Hb). rewrite Ei in H1. rewrite H1.
  replace (belongsb s (coords s i)) with true; auto.
  symmetry. apply belongsb_iff. intros k. apply in_bounds_nth in Hb. destruct Hb as [Hl Hb].
  destruct (Nat.lt_ge_cases k (length s)).
  - rewrite (nth_indep s 1 0) by auto. auto.
  - rewrite !nth_overflow by lia. lia.
Qed.

(** an undefined shape is rejected by the assertion *)
Lemma C08_fit_undefined_aborts_lemma :
  forall (T : Type) (zero : T) (dest src : list T) (outs ins : shape),
    is_fully_defined outs = false \/ is_fully_defined ins = false ->
    fit_toshape zero dest outs src ins = Abort.
Proof.
  intros T zero dest src outs ins H. unfold fit_toshape.
  destruct H as [-> | ->]; [reflexivity|]. now rewrite andb_false_r.
Qed.

Lemma C08_nonvacuous_lemma :
  fit_toshape 0 (repeat 7 6) [2; 3] [1; 2; 3; 4; 5; 6] [3; 2] = Ok [1; 2; 4; 5; 0; 0] /\
  belongs [3; 2] [1; 1] /\ in_bounds [2; 3] [1; 1] /\ ~ belongs [3; 2] [1; 2] /\ in_bounds [2; 3] [1; 2].
Proof.
  split; [reflexivity|]. split; [apply belongsb_iff; reflexivity|].
  split; [repeat constructor|]. split; [|repeat constructor].
  intros H. apply belongsb_iff in H. discriminate.
Qed.

Lemma reach_Inv {T} (zero junk : T) P w : reach zero junk P w -> Inv w.
Proof. induction 1; [apply Inv_init|]. eapply step_inv; eauto. Qed.

Lemma reach_run {T} (zero junk : T) ops : forall w w' P,
  reach zero junk P w -> (forall v o, P v o) -> run zero junk w ops = Ok w' -> reach zero junk P w'.
Proof.
  induction ops as [|o ops IH]; intros w w' P H HP E; cbn [run] in E; [congruence|].
  destruct (step zero junk w o) as [w1| | |] eqn:E1; try discriminate.
  apply (IH w1); auto. eapply reach_step; eauto.
Qed.

(** In every reachable state a tensor that has a buffer has a fully defined allocated
    shape and the buffer is live and has exactly n_elems cells. *)
Lemma C09_buffer_matches_shape_lemma :
  forall (T : Type) (zero junk : T) (ops : list (op T)) (w : world T),
    run zero junk init ops = Ok w ->
    forall i t p, owns w i t p ->
      is_fully_defined (alloc_shape t) = true /\
      exists b, live w p b /\ length b = n_elems (alloc_shape t) /\
        get_shape t = alloc_shape t /\ t_expose (w_heap w) t = Ok b.
Proof.
  intros T zero junk ops w E i t p [Ha Hr].
  pose proof (run_inv zero junk ops _ _ Inv_init E) as [I1 _].
  destruct (I1 i t Ha p Hr) as [b [Hb [Hl Hd]]].
  assert (F : is_fully_defined (alloc_shape t) = true) by now apply is_fully_defined_iff.
  split; auto. exists b. unfold live. split; auto. split; auto.
  assert (A : is_alloc t = true) by (apply is_alloc_iff; eauto).
  split; [unfold get_shape; now rewrite A|].
  unfold t_expose. rewrite A. cbn [assert_ bind]. rewrite Hr.
  rewrite (hget_ok _ p b Hb). cbn [bind]. rewrite Hl, Nat.leb_refl, <- Hl, firstn_all. reflexivity.
Qed.

(** In every reachable state n_elems is the size of the buffer, 0 without one, and then expose
    asserts and the shape is the allowed one. *)
Lemma C09_n_elems_lemma :
  forall (T : Type) (zero junk : T) (ops : list (op T)) (w : world T),
    run zero junk init ops = Ok w ->
    forall i t, alive w i t ->
      (forall p b, raw t = Some p -> live w p b -> t_n_elems t = length b) /\
      (raw t = None -> t_n_elems t = 0 /\ get_shape t = allowed_shape t /\ t_expose (w_heap w) t = Abort).
Proof.
  intros T zero junk ops w E i t Ha. split.
  - intros p b Hr Hb. destruct (C09_buffer_matches_shape_lemma T zero junk ops w E i t p (conj Ha Hr)) as (_ & b' & Hb' & L & _).
    unfold live in *. unfold t_n_elems. rewrite Hr. congruence.
  - intros Hr. assert (A : is_alloc t = false) by (unfold is_alloc; rewrite Hr; apply andb_false_r).
    unfold t_n_elems, get_shape, t_expose. rewrite Hr, A. auto.
Qed.

(** The claim that the allocated shape always stays compatible with the allowed shape is
    false: set_shape with a partially known shape of another rank changes the allowed
    shape, then fails to reallocate and keeps the old buffer. *)
Lemma C09_alloc_compatible_with_allowed_refuted_lemma :
  exists (ops : list (op nat)) (w : world nat) (t : tensor),
    run 0 0 init ops = Ok w /\ alive w 0 t /\ is_alloc t = true /\
    is_compatible_with (alloc_shape t) (allowed_shape t) = Ok false.
Proof.
  exists [ONew [2]; OSetShape 0 [0; 5]]. eexists. eexists.
  split; [vm_compute; reflexivity|]. split; [reflexivity|]. split; reflexivity.
Qed.

Definition CompatI {T} (w : world T) : Prop :=
  forall i t, alive w i t -> is_alloc t = true -> is_compatible_with (alloc_shape t) (allowed_shape t) = Ok true.

Lemma compatI_put {T} (w : world T) h i t' :
  CompatI w -> (is_alloc t' = true -> is_compatible_with (alloc_shape t') (allowed_shape t') = Ok true) ->
  CompatI (put w h i (Some t')).
Proof.
  intros H H' j t Ha. unfold alive, put in Ha; cbn [w_ts] in Ha.
  rewrite nth_error_set_nth in Ha. destruct ((i =? j) && (i <? length (w_ts w))).
  - injection Ha as <-. auto.
  - now apply (H j).
Qed.

Lemma compatI_add {T} (w : world T) h t' :
  CompatI w -> (is_alloc t' = true -> is_compatible_with (alloc_shape t') (allowed_shape t') = Ok true) ->
  CompatI (add w h t').
Proof.
  intros H H' j t Ha. unfold alive, add in Ha; cbn [w_ts] in Ha.
  destruct (Nat.lt_ge_cases j (length (w_ts w))) as [Hlt|Hge].
  - rewrite nth_error_app1 in Ha by auto. now apply (H j).
  - rewrite nth_error_app2 in Ha by auto. destruct (j - length (w_ts w)) as [|[|k]]; simpl in Ha; try discriminate.
    injection Ha as <-. auto.
Qed.

Lemma set_shape_compat {T} (zero junk : T) h t s h' t' :
  wf h t ->
  (is_alloc t = true -> is_compatible_with (alloc_shape t) (allowed_shape t) = Ok true) ->
  (is_alloc t = true -> is_fully_defined s = true \/ length s = length (alloc_shape t)) ->
  t_set_shape zero junk h t s = Ok (h', t') ->
  is_alloc t' = true -> is_compatible_with (alloc_shape t') (allowed_shape t') = Ok true.
Proof.
  intros W HC HG E A'. unfold t_set_shape in E.
  destruct (compat_total (allowed_shape t) s) as [c Ec]. rewrite Ec in E. cbn [bind] in E.
  set (t1 := if negb c || negb (is_alloc t) then mkT (raw t) (alloc_shape t) s else t) in *.
  assert (T1 : raw t1 = raw t /\ alloc_shape t1 = alloc_shape t).
  { unfold t1. destruct (negb c || negb (is_alloc t)); auto. }
  destruct T1 as [R1 A1].
  assert (W1 : wf h t1). { intros p Hp. rewrite A1. apply W. congruence. }
  assert (IA : is_alloc t1 = is_alloc t) by (unfold is_alloc; now rewrite R1, A1).
  destruct (compat_total s (alloc_shape t1)) as [c2 E2]. rewrite E2 in E. cbn [bind] in E.
  destruct (is_alloc t1 && negb c2) eqn:C.
  2:{ injection E as <- <-. rewrite A' in C. cbn [andb] in C. apply negb_false_iff in C. subst c2.
      unfold t1 in *. rewrite IA in A'. rewrite A' in *. destruct c; cbn [negb orb] in *; auto.
      cbn [alloc_shape allowed_shape] in *. rewrite compat_sym. auto. }
  apply andb_true_iff in C. destruct C as [A C]. apply negb_true_iff in C. subst c2.
  rewrite IA in A. specialize (HC A). specialize (HG A).
  destruct (t_allocate_shape_ok zero junk h t1
     (if is_fully_defined s then s else with_rank (merge_dims (with_rank s (rank (alloc_shape t1))) (alloc_shape t1)) (rank (allowed_shape t1))) W1)
     as [h2 [t2 [ok [Ea [_ [Al [Hf Ht]]]]]]].
  assert (Es : (if is_fully_defined s then Ok s
           else
             m <- merge_with (with_rank s (rank (alloc_shape t1))) (alloc_shape t1) ;;
             Ok (with_rank m (rank (allowed_shape t1)))) =
     Ok (if is_fully_defined s then s else with_rank (merge_dims (with_rank s (rank (alloc_shape t1))) (alloc_shape t1)) (rank (allowed_shape t1)))).
  { destruct (is_fully_defined s); auto. rewrite merge_with_eq by apply with_rank_length. reflexivity. }
  rewrite Es in E. cbn [bind] in E. rewrite Ea in E. cbn [bind] in E. injection E as <- <-.
  destruct ok.
  { destruct (Ht eq_refl) as [_ [-> [Hc _]]]. rewrite Al. exact Hc. }
  destruct (Hf eq_refl) as [_ ->].
  destruct c.
  { unfold t1 in *. rewrite A in *. cbn [negb orb] in *. auto. }
  (* allowed changed to s but allocate refused: impossible for a gentle shape *)
  exfalso. unfold t1 in *. cbn [negb orb alloc_shape allowed_shape raw] in *. clear t1.
  unfold t_allocate_shape in Ea. cbn [alloc_shape allowed_shape raw] in Ea.
  change (is_alloc (mkT (raw t) (alloc_shape t) s)) with (is_alloc t) in Ea. rewrite A in Ea.
  pose proof A as A0. apply is_alloc_iff in A0. destruct A0 as [Ad [p R]].
  assert (G : exists s', (if is_fully_defined s then s
      else with_rank (merge_dims (with_rank s (rank (alloc_shape t))) (alloc_shape t)) (rank s)) = s' /\
      is_compatible_with s' (alloc_shape t) = Ok false /\ is_compatible_with s' s = Ok true /\ is_fully_defined s' = true).
  { destruct (is_fully_defined s) eqn:F.
    - exists s. split; auto. split; auto. split; auto. apply compat_refl.
    - destruct HG as [|Hl]; [congruence|].
      assert (Ew : with_rank s (rank (alloc_shape t)) = s).
      { unfold with_rank, rank. rewrite Hl, Nat.ltb_irrefl. reflexivity. }
      rewrite Ew. assert (Lm : length (merge_dims s (alloc_shape t)) = length s) by now apply merge_dims_length.
      exists (merge_dims s (alloc_shape t)). split.
      + unfold with_rank, rank. rewrite Lm, Nat.ltb_irrefl. reflexivity.
      + pose proof (merge_defined s (alloc_shape t) Hl Ad) as Dm.
        split; [|split; [|now apply is_fully_defined_iff]].
        * destruct (compat_total (merge_dims s (alloc_shape t)) (alloc_shape t)) as [[|] Em]; auto.
          exfalso. apply compat_defined_iff in Em; auto. destruct Em as [[_ Em]|[Em _]]; [|lia].
          assert (is_compatible_with s (alloc_shape t) = Ok true); [|congruence].
          apply compat_same_rank_iff; auto. rewrite <- Em.
          pose proof (merge_dims_agree_l s (alloc_shape t) Hl) as M. clear - M.
          induction M; constructor; auto. unfold dim_agree in *; intuition.
        * apply compat_same_rank_iff; auto. now apply merge_dims_agree_l. }
  destruct G as [s' [Es' [G1 [G2 G3]]]]. rewrite Es' in Ea. rewrite G1 in Ea. cbn [bind andb] in Ea.
  rewrite G2, G3 in Ea. cbn [bind andb] in Ea. rewrite R in Ea. cbn [halloc] in Ea.
  destruct (hget (h ++ [Some (repeat junk (n_elems s'))]) (length h)); try discriminate. cbn [bind] in Ea.
  destruct (hget (h ++ [Some (repeat junk (n_elems s'))]) p); try discriminate. cbn [bind] in Ea.
  destruct (fit_toshape zero a s' a0 (alloc_shape t)); try discriminate. cbn [bind] in Ea.
  destruct (hfree (hput (h ++ [Some (repeat junk (n_elems s'))]) (length h) a1) (Some p)); try discriminate.
Qed.

Lemma step_compat {T} (zero junk : T) w o w' :
  Inv w -> CompatI w -> gentle w o -> step zero junk w o = Ok w' -> CompatI w'.
Proof.
  intros HI HC HG E. pose proof HI as [I1 [I2 I3]]. destruct o; cbn [step gentle] in *.
  - unfold t_new in E. destruct (is_fully_defined s) eqn:F; cbn [halloc] in E; injection E as <-; (apply compatI_add; [exact HC|]); [intros _; apply compat_refl|discriminate].
  - destruct (t_new_scalar_ok junk (w_heap w) v) as [h' [t [E' _]]]. rewrite E' in E. cbn in E. injection E as <-.
    apply compatI_add; auto. intros _. unfold t_new_scalar in E'.
    cbn [t_new is_fully_defined fold_left andb Nat.ltb Nat.leb halloc n_elems raw] in E'.
    destruct (hget (w_heap w ++ [Some (repeat junk (1 * 1))]) (length (w_heap w))) as [b| | |]; try discriminate. cbn [bind] in E'.
    destruct (wr b 0 v); try discriminate. cbn [bind] in E'. injection E' as _ <-. reflexivity.
  - destruct (lookup w i) as [t| | |] eqn:Ht; try discriminate. apply lookup_inv in Ht. cbn [bind] in E.
    destruct (t_copy_helper_ok junk (w_heap w) blank t shapeonly) as [h' [t' [E' [L [Ea [Eb [_ En]]]]]]].
    { intros p; discriminate. } { apply (I1 i t Ht). } { discriminate. }
    rewrite E' in E. cbn in E. injection E as <-. apply compatI_add; auto.
    intros A. rewrite Ea, Eb. apply (HC i); auto. destruct (is_alloc t) eqn:At; auto.
    apply is_alloc_iff in A. destruct A as [_ [q Q]]. rewrite En in Q by auto. discriminate.
  - destruct (lookup w i) as [t| | |] eqn:Ht; try discriminate. apply lookup_inv in Ht. cbn in E.
    injection E as <-. apply compatI_add; [apply compatI_put; auto; discriminate|].
    intros A. apply (HC i t Ht A).
  - destruct (lookup w i) as [ti| | |] eqn:Hi; try discriminate. apply lookup_inv in Hi. cbn [bind] in E.
    destruct (lookup w j) as [tj| | |] eqn:Hj; try discriminate. apply lookup_inv in Hj. cbn [bind] in E.
    destruct (Nat.eqb_spec i j); [injection E as <-; exact HC|].
    destruct (t_copy_helper_ok junk (w_heap w) ti tj false) as [h' [t' [E' [L [Ea [Eb [_ En]]]]]]].
    { apply (I1 i ti Hi). } { apply (I1 j tj Hj). }
    { intros p Hp. eapply (Inv_raw_neq w i j); eauto. }
    rewrite E' in E. cbn in E. injection E as <-. apply compatI_put; auto.
    intros A. rewrite Ea, Eb. apply (HC j); auto. destruct (is_alloc tj) eqn:At; auto.
    apply is_alloc_iff in A. destruct A as [_ [q Q]]. rewrite En in Q by auto. discriminate.
  - destruct (lookup w i) as [ti| | |] eqn:Hi; try discriminate. apply lookup_inv in Hi. cbn [bind] in E.
    destruct (lookup w j) as [tj| | |] eqn:Hj; try discriminate. apply lookup_inv in Hj. cbn [bind] in E.
    destruct (Nat.eqb_spec i j); [injection E as <-; exact HC|]. unfold t_move_helper in E.
    destruct (hfree (w_heap w) (raw ti)); try discriminate. cbn in E. injection E as <-.
    apply compatI_put; [|discriminate]. apply compatI_put; auto. intros A. apply (HC j tj Hj A).
  - destruct (lookup w i) as [t| | |] eqn:Ht; try discriminate. apply lookup_inv in Ht. cbn [bind] in E.
    destruct (t_set_shape zero junk (w_heap w) t s) as [[h' t']| | |] eqn:E'; try discriminate. cbn in E. injection E as <-.
    apply compatI_put; auto. apply (set_shape_compat zero junk (w_heap w) t s h' t'); auto.
    + apply (I1 i t Ht).
    + apply (HC i t Ht).
  - destruct (lookup w i) as [t| | |] eqn:Ht; try discriminate. apply lookup_inv in Ht. cbn [bind] in E.
    destruct (t_allocate_ok zero junk (w_heap w) t (I1 i t Ht)) as [h' [t' [ok [E' [L [Al [Hf Hok]]]]]]]. rewrite E' in E. cbn in E.
    injection E as <-. apply compatI_put; auto. destruct ok.
    + rewrite Al. intros _. now apply Hok.
    + destruct (Hf eq_refl) as [_ ->]. apply (HC i t Ht).
  - destruct (lookup w i) as [t| | |] eqn:Ht; try discriminate. apply lookup_inv in Ht. cbn [bind] in E.
    destruct (t_allocate_shape_ok zero junk (w_heap w) t s (I1 i t Ht)) as [h' [t' [ok [E' [L [Al [Hf Hok]]]]]]]. rewrite E' in E. cbn in E.
    injection E as <-. apply compatI_put; auto. destruct ok.
    + rewrite Al. intros _. destruct (Hok eq_refl) as [_ [-> [? _]]]. auto.
    + destruct (Hf eq_refl) as [_ ->]. apply (HC i t Ht).
  - destruct (lookup w i) as [t| | |] eqn:Ht; try discriminate. apply lookup_inv in Ht. cbn [bind] in E.
    destruct (t_deallocate_ok (w_heap w) t (I1 i t Ht)) as [h' [t' [ok [E' [L [Al R]]]]]]. rewrite E' in E. cbn in E.
    injection E as <-. apply compatI_put; auto. intros A. apply is_alloc_iff in A. destruct A as [_ [q Q]]. congruence.
  - destruct (lookup w i) as [ti| | |] eqn:Hi; try discriminate. apply lookup_inv in Hi. cbn [bind] in E.
    destruct (lookup w j) as [tj| | |] eqn:Hj; try discriminate. apply lookup_inv in Hj. cbn [bind] in E.
    destruct (t_copy_from_ok zero junk (w_heap w) ti tj s (I1 i ti Hi) (I1 j tj Hj)) as [h' [t' [ok [E' [L [Hf Hok]]]]]]. rewrite E' in E. cbn in E.
    injection E as <-. apply compatI_put; auto. destruct ok.
    + intros _. destruct (Hok eq_refl) as [_ [_ [-> [_ ?]]]]. now rewrite compat_sym.
    + destruct (Hf eq_refl) as [_ ->]. apply (HC i ti Hi).
  - destruct (lookup w i) as [t| | |] eqn:Ht; try discriminate. apply lookup_inv in Ht. cbn [bind] in E.
    destruct (raw t) as [p|] eqn:R; [|discriminate].
    destruct (hget (w_heap w) p) as [b| | |]; try discriminate. cbn [bind] in E.
    destruct (wr b k v); try discriminate. cbn in E. injection E as <-. exact HC.
  - destruct (lookup w i) as [t| | |] eqn:Ht; try discriminate. apply lookup_inv in Ht. cbn [bind] in E.
    destruct (t_from_proto false zero junk (w_heap w) t pr) as [[[h' t'] ok]| | |] eqn:E'; try discriminate.
    cbn in E. injection E as <-. apply compatI_put; auto. intros _. destruct HG as [F C].
    unfold t_from_proto in E'. destruct (length (p_alloc pr) =? length (p_allow pr)); [|discriminate].
    cbn [assert_ bind allowed_shape raw alloc_shape] in E'. rewrite C in E'. cbn [bind] in E'. rewrite F in E'. cbn [negb orb] in E'.
    set (t1 := mkT (raw t) (alloc_shape t) (p_allow pr)) in *.
    assert (W1 : wf (w_heap w) t1) by (intros p Hp; apply (I1 i t Ht p Hp)).
    destruct (t_deallocate_ok (w_heap w) t1 W1) as [h1 [t1' [okd [Ed [_ [Al R1]]]]]]. rewrite Ed in E'.
    cbn [bind] in E'. rewrite Al, R1 in E'. cbn [t1 allowed_shape] in E'.
    unfold t_allocate in E'. rewrite is_alloc_none in E'. cbn [alloc_shape raw] in E'. rewrite F in E'.
    unfold t_allocate_shape in E'. rewrite is_alloc_none in E'. cbn [alloc_shape raw allowed_shape] in E'. rewrite compat_refl in E'. cbn [bind andb] in E'.
    rewrite C, F in E'. cbn [bind andb halloc assert_ raw] in E'.
    destruct (hget _ _) as [b| | |] in E'; try discriminate. cbn [bind] in E'.
    destruct (memcpy _ _ _ _ _) as [b2| | |] in E'; try discriminate. cbn [bind] in E'. injection E' as _ <- _.
    exact C.
  - destruct (lookup w i) as [t| | |] eqn:Ht; try discriminate. apply lookup_inv in Ht. cbn [bind] in E.
    unfold t_destroy in E. destruct (hfree (w_heap w) (raw t)); try discriminate. cbn in E. injection E as <-.
    intros j t2 Ha. unfold alive, put in Ha; cbn [w_ts] in Ha. rewrite nth_error_set_nth in Ha.
    destruct ((i =? j) && (i <? length (w_ts w))); [discriminate|]. now apply (HC j).
Qed.

(** The remaining part of the claim: it does hold along every history in which set_shape
    on an allocated tensor is given a fully defined shape or one of the same rank, and
    from_proto a consistent message. *)
Lemma C09_alloc_compatible_when_gentle_lemma :
  forall (T : Type) (zero junk : T) (w : world T), reach zero junk gentle w ->
    forall i t, alive w i t -> is_alloc t = true ->
      is_compatible_with (alloc_shape t) (allowed_shape t) = Ok true.
Proof.
  intros T zero junk w H. assert (G : CompatI w); [|exact G].
  induction H as [|w o w' Hr IH HG E].
  - intros [|i] t Ha; discriminate.
  - apply (step_compat zero junk w o w'); auto. now apply (reach_Inv zero junk gentle).
Qed.

Lemma C09_nonvacuous_lemma :
  exists w : world nat, run 0 9 init [ONew [2; 2]; OStore 0 1 5; OSetShape 0 [3; 1]; OCopy 0 false] = Ok w /\
    exists t, owns w 1 t 2 /\ alloc_shape t = [3; 1] /\ live w 2 [9; 5; 0].
Proof. eexists. split; [vm_compute; reflexivity|]. eexists. repeat split. Qed.

Lemma C09_nonvacuous_gentle_lemma :
  exists w : world nat, reach 0 9 gentle w /\ exists t, alive w 0 t /\ is_alloc t = true /\ alloc_shape t = [3; 2].
Proof.
  eexists. split.
  - eapply reach_step with (o := OSetShape 0 [3; 0]).
    + eapply reach_step with (o := ONew [2; 2]); [apply reach_init|exact I|reflexivity].
    + intros t H _. right. vm_compute in H. injection H as <-. reflexivity.
    + vm_compute. reflexivity.
  - eexists. repeat split.
Qed.

(** In every reachable state each live buffer belongs to exactly one live tensor, and when
    all tensors are destroyed no live buffer is left. *)
Lemma C10_ownership_no_leak_lemma :
  forall (T : Type) (zero junk : T) (ops : list (op T)) (w : world T),
    run zero junk init ops = Ok w ->
    (forall p b, live w p b -> exists! i, exists t, owns w i t p) /\
    (forall i t p, owns w i t p -> exists b, live w p b) /\
    (all_destroyed w -> forall p b, ~ live w p b).
Proof.
  intros T zero junk ops w E.
  pose proof (run_inv zero junk ops _ _ Inv_init E) as [I1 [I2 I3]].
  split; [|split].
  - intros p b Hl. destruct (I3 p b Hl) as [i [t Ho]]. exists i. split; eauto.
    intros j [t' Ho']. apply (I2 i j t t' p); auto.
  - intros i t p [Ha Hr]. destruct (I1 i t Ha p Hr) as [b [Hb _]]. exists b. exact Hb.
  - intros Hd p b Hl. destruct (I3 p b Hl) as [i [t [Ha _]]]. exact (Hd i t Ha).
Qed.

(** No reachable state can be driven to a double release, a use after release or an
    out-of-bounds access by a client that uses live objects and stores in range: every
    such operation completes normally. *)
Lemma C10_no_double_free_no_use_after_free_lemma :
  forall (T : Type) (zero junk : T) (ops : list (op T)) (w : world T) (o : op T),
    run zero junk init ops = Ok w -> client_ok w o ->
    exists w', step zero junk w o = Ok w'.
Proof.
  intros T zero junk ops w o E HC. apply step_ok; auto.
  exact (run_inv zero junk ops _ _ Inv_init E).
Qed.

Lemma C10_nonvacuous_lemma :
  exists w : world nat,
    run 0 0 init [ONew [2]; OCopy 0 false; OMove 0; OAssign 0 1; OAssignMove 1 2;
                  ODestroy 0; ODestroy 1; ODestroy 2] = Ok w /\
    w_ts w = [None; None; None] /\ w_heap w = [None; None; None] /\ client_ok w (ONew [3]) /\
    (exists w1 : world nat, run 0 0 init [ONew [2]; OCopy 0 false] = Ok w1 /\ live w1 1 [0; 0] /\ client_ok w1 (OAssign 0 1)).
Proof.
  eexists. split; [vm_compute; reflexivity|]. split; [reflexivity|]. split; [reflexivity|].
  split; [exact I|]. eexists. split; [vm_compute; reflexivity|]. split; [reflexivity|].
  split; eexists; reflexivity.
Qed.
