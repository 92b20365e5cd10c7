(** Property lemmas about tensor contents: C11 - C15 and C49. *)
From Verif Require Import Common ShapeModel ShapeSpec ShapeProofs FitModel FitProofs TensorModel TensorSpec TensorProofs.

(** ---- C11 ---- *)

Lemma set_shape_same {T} (zero junk : T) h t s :
  is_alloc t = true -> is_compatible_with s (alloc_shape t) = Ok true ->
  exists t', t_set_shape zero junk h t s = Ok (h, t') /\ raw t' = raw t /\ alloc_shape t' = alloc_shape t.
Proof.
  intros A C. unfold t_set_shape. destruct (compat_total (allowed_shape t) s) as [c E]. rewrite E. cbn [bind].
  rewrite A. cbn [negb]. rewrite orb_false_r.
  destruct c; cbn [negb].
  - rewrite C. cbn [bind]. rewrite A. cbn [negb andb]. eauto.
  - cbn [alloc_shape]. rewrite C. cbn [bind]. rewrite andb_false_r. eexists. split; [reflexivity|]. auto.
Qed.

(** allocate(shape) on an allocated tensor when the new shape is acceptable *)
Lemma allocate_shape_moves {T} (zero junk : T) h t s p b :
  raw t = Some p -> nth_error h p = Some (Some b) -> length b = n_elems (alloc_shape t) ->
  defined (alloc_shape t) -> defined s ->
  is_compatible_with s (alloc_shape t) = Ok false -> is_compatible_with s (allowed_shape t) = Ok true ->
  exists h' b', t_allocate_shape zero junk h t s = Ok (h', mkT (Some (length h)) s (allowed_shape t), true) /\
    nth_error h' (length h) = Some (Some b') /\ length b' = n_elems s /\
    forall c, in_bounds s c ->
      nth_error b' (offset s c) = if belongsb (alloc_shape t) c then nth_error b (offset (alloc_shape t) c) else Some zero.
Proof.
  intros R Hp Hl Hd Hs C1 C2. unfold t_allocate_shape. rewrite C1. cbn [bind]. rewrite andb_false_r.
  rewrite C2. cbn [bind]. rewrite (proj2 (is_fully_defined_iff s) Hs). cbn [andb].
  assert (A : is_alloc t = true) by (apply is_alloc_iff; eauto). rewrite A, R. cbn [halloc].
  rewrite (hget_ok _ (length h) (repeat junk (n_elems s))) by (apply (halloc_fresh junk h (n_elems s))). cbn [bind].
  assert (Hlt : p < length h) by now apply nth_error_lt in Hp.
  rewrite (hget_ok _ p b) by (rewrite nth_error_app1; auto). cbn [bind].
  destruct (fit_toshape_ok zero (repeat junk (n_elems s)) s b (alloc_shape t) Hs Hd) as [d' [Ef [Ld [Hc _]]]].
  { rewrite repeat_length; lia. } { lia. }
  rewrite Ef. cbn [bind hfree]. rewrite hput_app_fresh. rewrite repeat_length in Ld.
  rewrite (hget_ok _ p b) by (rewrite nth_error_app1; auto). cbn [bind].
  eexists _, d'. split; [reflexivity|]. split.
  - rewrite nth_error_set_nth_neq by lia. rewrite nth_error_app2, Nat.sub_diag by lia. reflexivity.
  - split; auto.
Qed.

Lemma alive_put {T} (w : world T) h i t t' : alive w i t -> alive (put w h i (Some t')) i t'.
Proof. intros H. unfold alive, put in *; cbn [w_ts]. apply nth_error_set_nth_eq. now apply nth_error_lt in H. Qed.

(** In every reachable state, set_shape on an allocated tensor
    - with a fully defined shape that is not compatible reallocates to exactly that shape,
      keeping every element whose coordinate exists in both shapes and zeroing the others;
    - with a shape compatible with the allocated one changes neither shape nor data. *)
Lemma C11_set_shape_keeps_data_lemma :
  forall (T : Type) (zero junk : T) (ops : list (op T)) (w : world T) i t p b (s : shape),
    run zero junk init ops = Ok w -> owns w i t p -> live w p b ->
    (is_fully_defined s = true -> is_compatible_with s (alloc_shape t) = Ok false ->
       exists w' t' p' b', step zero junk w (OSetShape i s) = Ok w' /\
         owns w' i t' p' /\ live w' p' b' /\ alloc_shape t' = s /\ length b' = n_elems s /\
         (forall c, in_bounds s c -> belongs (alloc_shape t) c ->
            nth_error b' (offset s c) = nth_error b (offset (alloc_shape t) c)) /\
         (forall c, in_bounds s c -> ~ belongs (alloc_shape t) c -> nth_error b' (offset s c) = Some zero)) /\
    (is_compatible_with s (alloc_shape t) = Ok true ->
       exists w' t', step zero junk w (OSetShape i s) = Ok w' /\
         owns w' i t' p /\ live w' p b /\ alloc_shape t' = alloc_shape t).
Proof.
  intros T zero junk ops w i t p b s E [Ha Hr] Hb.
  pose proof (run_inv zero junk ops _ _ Inv_init E) as [I1 _].
  destruct (I1 i t Ha p Hr) as [b0 [Hb0 [Hl Hd]]]. unfold live in Hb.
  rewrite Hb in Hb0. injection Hb0 as <-.
  assert (A : is_alloc t = true) by (apply is_alloc_iff; eauto).
  cbn [step]. rewrite (lookup_ok w i t Ha). cbn [bind]. split.
  - intros F C. pose proof F as Fd. apply is_fully_defined_iff in Fd. unfold t_set_shape.
    destruct (compat_total (allowed_shape t) s) as [c Ec]. rewrite Ec. cbn [bind]. rewrite A. cbn [negb]. rewrite orb_false_r.
    set (t1 := if negb c then mkT (raw t) (alloc_shape t) s else t).
    assert (T1 : raw t1 = Some p /\ alloc_shape t1 = alloc_shape t /\ is_compatible_with s (allowed_shape t1) = Ok true).
    { unfold t1. destruct c; cbn [negb raw alloc_shape allowed_shape].
      - rewrite compat_sym. auto.
      - split; auto. split; auto. apply compat_refl. }
    destruct T1 as [R1 [A1 C1]]. rewrite A1, C. cbn [bind negb]. rewrite andb_true_r.
    assert (Al1 : is_alloc t1 = true) by (apply is_alloc_iff; rewrite A1; eauto). rewrite Al1, F. cbn [bind].
    destruct (allocate_shape_moves zero junk (w_heap w) t1 s p b) as [h' [b' [E' [Hn [Lb Hc]]]]]; auto; try (rewrite A1; auto).
    rewrite E'. cbn [bind fst snd]. rewrite A1 in Hc.
    exists (put w h' i (Some (mkT (Some (length (w_heap w))) s (allowed_shape t1)))).
    exists (mkT (Some (length (w_heap w))) s (allowed_shape t1)), (length (w_heap w)), b'.
    split; auto. split; [split; [eapply alive_put; eauto|reflexivity]|]. split; [exact Hn|]. split; auto. split; auto. split.
    + intros c0 Hc0 Hbe. rewrite Hc by auto. now rewrite (proj2 (belongsb_iff _ c0) Hbe).
    + intros c0 Hc0 Hbe. rewrite Hc by auto. destruct (belongsb (alloc_shape t) c0) eqn:B; auto.
      apply belongsb_iff in B. contradiction.
  - intros C. destruct (set_shape_same zero junk (w_heap w) t s A C) as [t' [E' [R' A']]]. rewrite E'. cbn [bind fst snd].
    eexists _, t'. split; [reflexivity|]. split; [split; [eapply alive_put; eauto|congruence]|]. split; auto.
Qed.

(** With a partially known shape of the same rank as the allocated and allowed shapes, the
    unknown dimensions are taken from the allocated shape. *)
Lemma C11_set_shape_partial_dims_lemma :
  forall (T : Type) (zero junk : T) (ops : list (op T)) (w : world T) i t p b (s : shape),
    run zero junk init ops = Ok w -> owns w i t p -> live w p b ->
    length s = length (alloc_shape t) -> length (allowed_shape t) = length s ->
    is_compatible_with (alloc_shape t) (allowed_shape t) = Ok true ->
    is_compatible_with s (alloc_shape t) = Ok false ->
    exists w' t' p' b', step zero junk w (OSetShape i s) = Ok w' /\
      owns w' i t' p' /\ live w' p' b' /\
      length (alloc_shape t') = length s /\
      (forall k, k < length s ->
         nth k (alloc_shape t') 0 = if nth k s 0 =? 0 then nth k (alloc_shape t) 0 else nth k s 0) /\
      length b' = n_elems (alloc_shape t') /\
      (forall c, in_bounds (alloc_shape t') c ->
         nth_error b' (offset (alloc_shape t') c) =
           if belongsb (alloc_shape t) c then nth_error b (offset (alloc_shape t) c) else Some zero).
Proof.
  intros T zero junk ops w i t p b s E [Ha Hr] Hb Ls La Cal C.
  pose proof (run_inv zero junk ops _ _ Inv_init E) as [I1 _].
  destruct (I1 i t Ha p Hr) as [b0 [Hb0 [Hl Hd]]]. unfold live in Hb.
  rewrite Hb in Hb0. injection Hb0 as <-.
  assert (A : is_alloc t = true) by (apply is_alloc_iff; eauto).
  cbn [step]. rewrite (lookup_ok w i t Ha). cbn [bind]. unfold t_set_shape.
  destruct (compat_total (allowed_shape t) s) as [c Ec]. rewrite Ec. cbn [bind]. rewrite A. cbn [negb]. rewrite orb_false_r.
  set (t1 := if negb c then mkT (raw t) (alloc_shape t) s else t).
  set (m := merge_dims s (alloc_shape t)).
  assert (Lm : length m = length s) by now apply merge_dims_length.
  assert (Dm : defined m) by now apply merge_defined.
  assert (Cm : is_compatible_with m s = Ok true).
  { apply compat_same_rank_iff; auto. now apply merge_dims_agree_l. }
  assert (T1 : raw t1 = Some p /\ alloc_shape t1 = alloc_shape t /\ length (allowed_shape t1) = length s /\ is_compatible_with m (allowed_shape t1) = Ok true).
  { unfold t1. destruct c; cbn [negb raw alloc_shape allowed_shape]; [|auto].
    split; auto. split; auto. split; auto.
    apply compat_same_rank_iff; [lia|]. apply compat_same_rank_iff in Ec; [|lia].
    apply compat_same_rank_iff in Cal; [|lia]. unfold m. clear - Ec Cal Ls.
    revert Ls Cal Ec. generalize (alloc_shape t), (allowed_shape t). revert s.
    induction s as [|x s IH]; intros [|y a] [|z l] L H1 H2; cbn [length merge_dims] in *; try lia;
      inversion H1; inversion H2; subst; constructor; auto.
    unfold dim_agree in *. destruct (Nat.eqb_spec x y), (Nat.eqb_spec x 0), (Nat.eqb_spec y 0); cbn [andb orb negb]; lia. }
  destruct T1 as [R1 [A1 [L1 C1]]]. rewrite A1, C. cbn [bind negb]. rewrite andb_true_r.
  assert (Al1 : is_alloc t1 = true) by (apply is_alloc_iff; rewrite A1; eauto). rewrite Al1.
  assert (Es : (if is_fully_defined s then Ok s
      else m0 <- merge_with (with_rank s (rank (alloc_shape t))) (alloc_shape t) ;; Ok (with_rank m0 (rank (allowed_shape t1)))) = Ok m).
  { destruct (is_fully_defined s) eqn:F.
    - f_equal. apply is_fully_defined_iff in F. destruct F as [_ F]. unfold m. clear - F Ls.
      revert Ls; generalize (alloc_shape t). induction F as [|x s Hx F IH]; intros [|y a] L; cbn [length merge_dims] in *; try lia; auto.
      rewrite <- IH by lia. f_equal. destruct (Nat.eqb_spec x y), (Nat.eqb_spec x 0), (Nat.eqb_spec y 0); cbn [andb orb negb]; lia.
    - assert (Ew : with_rank s (rank (alloc_shape t)) = s).
      { unfold with_rank, rank. rewrite Ls, Nat.ltb_irrefl. reflexivity. }
      rewrite Ew, merge_with_eq by auto. cbn [bind]. f_equal. unfold with_rank, rank. fold m. rewrite Lm, L1, Nat.ltb_irrefl. reflexivity. }
  rewrite Es. cbn [bind].
  assert (Cf : is_compatible_with m (alloc_shape t) = Ok false).
  { destruct (compat_total m (alloc_shape t)) as [[|] Em]; auto. exfalso.
    apply compat_defined_iff in Em; auto. destruct Em as [[_ Em]|[Em _]]; [|lia].
    assert (is_compatible_with s (alloc_shape t) = Ok true); [|congruence].
    rewrite <- Em. rewrite compat_sym. auto. }
  destruct (allocate_shape_moves zero junk (w_heap w) t1 m p b) as [h' [b' [E' [Hn [Lb Hc]]]]]; auto; try (rewrite A1; auto).
  rewrite E'. cbn [bind fst snd]. rewrite A1 in Hc.
  eexists _, (mkT (Some (length (w_heap w))) m (allowed_shape t1)), (length (w_heap w)), b'.
  split; [reflexivity|]. split; [split; [eapply alive_put; eauto|reflexivity]|]. split; [exact Hn|].
  cbn [alloc_shape]. split; auto. split; [|split; auto].
  intros k Hk. now apply merge_dims_nth.
Qed.

(** Outside those cases the request can be dropped silently: a tensor whose allowed shape
    is undefined ignores a partially known shape, although it is incompatible. *)
Lemma C11_partial_shape_ignored_refuted_lemma :
  exists (w w' : world nat) t, run 0 0 init [ONew []; OAllocateShape 0 [2; 2]] = Ok w /\
    step 0 0 w (OSetShape 0 [3; 0]) = Ok w' /\ alive w' 0 t /\ is_alloc t = true /\ alloc_shape t = [2; 2] /\
    is_compatible_with [3; 0] (alloc_shape t) = Ok false.
Proof.
  eexists _, _, _. split; [vm_compute; reflexivity|]. split; [vm_compute; reflexivity|].
  split; [reflexivity|]. repeat split.
Qed.

Lemma C11_nonvacuous_lemma :
  exists w w' : world nat, run 0 9 init [ONew [2; 2]; OStore 0 0 1; OStore 0 1 2; OStore 0 2 3; OStore 0 3 4] = Ok w /\
    is_compatible_with [3; 2] [2; 2] = Ok false /\
    step 0 9 w (OSetShape 0 [3; 2]) = Ok w' /\ live w' 1 [1; 2; 0; 3; 4; 0] /\
    is_compatible_with [3; 0] [2; 2] = Ok false.
Proof.
  eexists _, _. split; [vm_compute; reflexivity|]. split; [reflexivity|]. split; [vm_compute; reflexivity|].
  split; reflexivity.
Qed.

(** ---- C12 ---- *)

(** In every reachable state get on an in-bounds coordinate returns the element that
    expose lists at the coordinate's storage offset. *)
Lemma C12_get_agrees_with_expose_lemma :
  forall (T : Type) (zero junk : T) (ops : list (op T)) (w : world T) i t p,
    run zero junk init ops = Ok w -> owns w i t p ->
    exists b, t_expose (w_heap w) t = Ok b /\ length b = n_elems (alloc_shape t) /\
      forall c, in_bounds (alloc_shape t) c ->
        exists x, nth_error b (offset (alloc_shape t) c) = Some x /\ t_get (w_heap w) t c = Ok x.
Proof.
  intros T zero junk ops w i t p E [Ha Hr].
  pose proof (run_inv zero junk ops _ _ Inv_init E) as [I1 _].
  destruct (I1 i t Ha p Hr) as [b [Hb [Hl Hd]]]. exists b.
  assert (A : is_alloc t = true) by (apply is_alloc_iff; eauto).
  split.
  { unfold t_expose. rewrite A. cbn [assert_ bind]. rewrite Hr, (hget_ok _ p b Hb). cbn [bind].
    now rewrite Hl, Nat.leb_refl, <- Hl, firstn_all. }
  split; auto. intros c Hc. pose proof (offset_lt _ _ Hc) as Ho. rewrite <- n_elems_prod in Ho by apply Hd.
  destruct (rd_lt b (offset (alloc_shape t) c)) as [x [Hx Ex]]; [lia|]. exists x. split; auto.
  unfold t_get. rewrite flat_idx_in_bounds by auto. cbn [bind].
  destruct (Nat.leb_spec (n_elems (alloc_shape t)) (offset (alloc_shape t) c)); [lia|].
  rewrite Hr, (hget_ok _ p b Hb). exact Ex.
Qed.

(** For any non-empty coordinate, get throws exactly when the mixed-radix offset is past
    the last element, and otherwise never leaves the buffer. *)
Lemma C12_get_throws_past_the_end_lemma :
  forall (T : Type) (zero junk : T) (ops : list (op T)) (w : world T) i t p c,
    run zero junk init ops = Ok w -> owns w i t p -> c <> [] ->
    (t_get (w_heap w) t c = Throw <-> n_elems (alloc_shape t) <= offset (alloc_shape t) c) /\
    (t_get (w_heap w) t c = Throw \/ exists x, t_get (w_heap w) t c = Ok x).
Proof.
  intros T zero junk ops w i t p c E [Ha Hr] Hc.
  pose proof (run_inv zero junk ops _ _ Inv_init E) as [I1 _].
  destruct (I1 i t Ha p Hr) as [b [Hb [Hl Hd]]].
  unfold t_get. rewrite flat_idx_offset by (auto; apply Hd). cbn [bind].
  destruct (Nat.leb_spec (n_elems (alloc_shape t)) (offset (alloc_shape t) c)) as [H|H].
  - split; [split; auto|auto].
  - rewrite Hr, (hget_ok _ p b Hb). cbn [bind].
    destruct (rd_lt b (offset (alloc_shape t) c)) as [x [_ Ex]]; [lia|]. rewrite Ex.
    split; [split; [discriminate|lia]|eauto].
Qed.

(** a coordinate beyond the last dimension (all others in bounds) is always rejected *)
Lemma C12_get_throws_last_dimension_lemma :
  forall (T : Type) (zero junk : T) (ops : list (op T)) (w : world T) i t p c,
    run zero junk init ops = Ok w -> owns w i t p -> length c = length (alloc_shape t) ->
    last (alloc_shape t) 0 <= last c 0 -> t_get (w_heap w) t c = Throw.
Proof.
  intros T zero junk ops w i t p c E Ho Hl Hlast.
  destruct (C12_get_throws_past_the_end_lemma T zero junk ops w i t p c E Ho) as [H _].
  { intros ->. destruct Ho as [Ha Hr]. pose proof (run_inv zero junk ops _ _ Inv_init E) as [I1 _].
    destruct (I1 i t Ha p Hr) as [b [_ [_ [Hne _]]]]. destruct (alloc_shape t); simpl in *; congruence. }
  apply H. destruct Ho as [Ha Hr]. pose proof (run_inv zero junk ops _ _ Inv_init E) as [I1 _].
  destruct (I1 i t Ha p Hr) as [b [_ [_ [Hne Hpos]]]]. rewrite n_elems_prod by auto.
  clear - Hl Hlast Hpos Hne. revert c Hl Hlast Hne Hpos. induction (alloc_shape t) as [|d s IH]; intros [|x c] Hl Hlast Hne Hpos;
    cbn [length] in *; try lia; [congruence|].
  cbn [prod offset]. destruct s as [|d' s].
  - destruct c; [|discriminate]. cbn in *. lia.
  - destruct c as [|x' c]; [discriminate|]. inversion Hpos; subst.
    assert (prod (d' :: s) <= offset (d' :: s) (x' :: c)).
    { apply IH; auto; try discriminate. }
    assert (d * prod (d' :: s) <= d * offset (d' :: s) (x' :: c)) by (apply Nat.mul_le_mono_l; auto). lia.
Qed.

(** The documented claim is false for the other dimensions: an out-of-bound entry aliases
    another element instead of throwing. *)
Lemma C12_out_of_bound_aliases_refuted_lemma :
  exists (w : world nat) t, run 0 0 init [ONew [2; 2]; OStore 0 2 7] = Ok w /\ alive w 0 t /\
    ~ in_bounds (alloc_shape t) [2; 0] /\ t_get (w_heap w) t [2; 0] = Ok 7.
Proof.
  eexists _, _. split; [vm_compute; reflexivity|]. split; [reflexivity|]. split; [|reflexivity].
  intros H. apply in_bounds_nth in H. destruct H as [_ H]. specialize (H 0). cbn in H. lia.
Qed.

(** get on a tensor that has no data throws *)
Lemma C12_get_unallocated_throws_lemma :
  forall (T : Type) (junk : T) (h : heap T) (s : shape) c,
    is_fully_defined s = false -> c <> [] ->
    t_get h (snd (t_new junk h s)) c = Throw.
Proof.
  intros T junk h s c F Hc. unfold t_new. rewrite F. cbn [snd]. unfold t_get. cbn [alloc_shape].
  destruct c as [|x c]; [congruence|]. reflexivity.
Qed.

Lemma C12_nonvacuous_lemma :
  exists (w : world nat) t, run 0 0 init [ONew [2; 3]; OStore 0 5 7] = Ok w /\ owns w 0 t 0 /\
    in_bounds (alloc_shape t) [1; 2] /\ t_get (w_heap w) t [1; 2] = Ok 7 /\ t_get (w_heap w) t [0; 3] = Throw.
Proof.
  eexists _, _. split; [vm_compute; reflexivity|]. split; [split; reflexivity|]. split; [|split; reflexivity].
  repeat constructor.
Qed.

(** ---- C13 ---- *)

Fixpoint first_zero (s : shape) : nat :=
  match s with [] => 0 | d :: l => if d =? 0 then 0 else S (first_zero l) end.

Lemma scan_unknown_eq s : forall i r fu k, exists f,
  scan_unknown s i r fu k =
    (map (fun d => if d =? 0 then 1 else d) s, f, k * prod (filter (fun d => negb (d =? 0)) s)) /\
  f = (if existsb (fun d => d =? 0) s then Nat.min fu (i + first_zero s) else fu).
Proof.
  induction s as [|d s IH]; intros i r fu k; cbn [scan_unknown map filter existsb prod first_zero].
  - eexists. split; [|reflexivity]. f_equal. lia.
  - destruct (Nat.eqb_spec d 0) as [->|Hd]; cbn [negb orb].
    + destruct (IH (S i) r (if i <? fu then i else fu) k) as [f [E Hf]]. rewrite E. exists f. split; auto.
      rewrite Hf. destruct (Nat.ltb_spec i fu); destruct (existsb (fun d => d =? 0) s); lia.
    + destruct (IH (S i) r fu (k * d)) as [f [E Hf]]. rewrite E. exists f. split.
      * cbn [prod]. f_equal. ring.
      * rewrite Hf. destruct (existsb (fun d => d =? 0) s); auto. f_equal. lia.
Qed.

Lemma not_defined_zero s : s <> [] -> is_fully_defined s = false -> existsb (fun d => d =? 0) s = true.
Proof.
  intros Hne F. destruct (existsb (fun d => d =? 0) s) eqn:Ex; auto. exfalso.
  assert (defined s). { split; auto. apply Forall_forall. intros x Hx.
    destruct (Nat.eq_dec x 0) as [->|]; [|lia]. exfalso.
    assert (existsb (fun d => d =? 0) s = true) by (apply existsb_exists; exists 0; auto). congruence. }
  apply is_fully_defined_iff in H. congruence.
Qed.

Lemma first_zero_lt s : existsb (fun d => d =? 0) s = true -> first_zero s < length s.
Proof. induction s as [|d s IH]; cbn; [discriminate|]. destruct (d =? 0); cbn; [lia|]. intros H; specialize (IH H); lia. Qed.

Definition fillz (s : shape) (v : nat) : shape := set_nth (first_zero s) v (map (fun d => if d =? 0 then 1 else d) s).

Lemma prod_ones s : prod (map (fun d => if d =? 0 then 1 else d) s) = prod (filter (fun d => negb (d =? 0)) s).
Proof. induction s as [|d s IH]; cbn; auto. destruct (Nat.eqb_spec d 0); cbn; rewrite IH; lia. Qed.

Lemma prod_fillz s v : existsb (fun d => d =? 0) s = true ->
  prod (fillz s v) = v * prod (filter (fun d => negb (d =? 0)) s).
Proof.
  unfold fillz. induction s as [|d s IH]; cbn; [discriminate|]. destruct (Nat.eqb_spec d 0); cbn.
  - intros _. now rewrite prod_ones.
  - intros H. rewrite IH by auto. ring.
Qed.

Lemma fillz_completes s v : existsb (fun d => d =? 0) s = true -> 0 < v -> completes s (fillz s v).
Proof.
  intros Ex Hv. split.
  - split.
    + unfold fillz. intros C. apply (f_equal (@length nat)) in C. rewrite length_set_nth, map_length in C. destruct s; cbn in *; discriminate.
    + unfold fillz. clear Ex. revert Hv. induction s as [|d s IH]; cbn; intros; [constructor|].
      destruct (Nat.eqb_spec d 0); cbn; constructor; auto; try lia.
      apply Forall_forall. intros x Hx. apply in_map_iff in Hx. destruct Hx as [y [<- _]]. destruct (Nat.eqb_spec y 0); lia.
  - destruct s as [|d s]; [discriminate|]. unfold fillz. revert Ex. generalize (d :: s). clear.
    induction l as [|x l IH]; cbn; [discriminate|]. destruct (Nat.eqb_spec x 0) as [->|]; cbn.
    + intros _. constructor; auto. clear. induction l as [|x l IH]; cbn; constructor; auto. destruct (Nat.eqb_spec x 0); auto.
    + intros H. constructor; auto.
Qed.

Lemma guess_eq allowed n : guess_shape allowed n = Ok (
  if is_fully_defined allowed then (if n_elems allowed =? n then Some allowed else None)
  else match allowed with
       | [] => Some [n]
       | _ => let k := prod (filter (fun d => negb (d =? 0)) allowed) in
              if n mod k =? 0 then Some (fillz allowed (n / k)) else None
       end).
Proof.
  unfold guess_shape. destruct (is_fully_defined allowed) eqn:F; auto.
  destruct allowed as [|d s] eqn:Es; cbn [is_part_defined]; auto.
  rewrite <- Es in *. assert (Hne : allowed <> []) by (rewrite Es; discriminate).
  pose proof (not_defined_zero _ Hne F) as Ex.
  destruct (scan_unknown_eq allowed 0 (length allowed) (length allowed) 1) as [f [E Hf]]. rewrite E.
  rewrite Ex in Hf. rewrite Nat.mul_1_l. set (k := prod (filter (fun d0 => negb (d0 =? 0)) allowed)).
  assert (Hk : 0 < k). { apply prod_pos. apply Forall_forall. intros x Hx. apply filter_In in Hx. destruct Hx as [_ Hx]. apply negb_true_iff, Nat.eqb_neq in Hx. lia. }
  apply Nat.ltb_lt in Hk. rewrite Hk. cbn [assert_ bind].
  destruct (n mod k =? 0); auto. pose proof (first_zero_lt _ Ex).
  rewrite wr_ok by (rewrite map_length; lia). cbn [bind]. unfold fillz. now replace f with (first_zero allowed) by lia.
Qed.

Lemma completes_known allowed s : allowed <> [] -> completes allowed s ->
  exists m, n_elems s = m * prod (filter (fun d => negb (d =? 0)) allowed).
Proof.
  intros Hne [[Hs Hp] H]. destruct allowed as [|a al]; [congruence|]. rewrite n_elems_prod by auto. clear Hne Hs Hp.
  induction H as [|x y l l' Hxy H IH]; cbn [filter prod].
  - exists 1; lia.
  - destruct IH as [m Em]. destruct (Nat.eqb_spec x 0); cbn [negb prod].
    + exists (y * m). rewrite Em. ring.
    + destruct Hxy as [->|]; [|congruence]. exists m. rewrite Em. ring.
Qed.

(** guess_shape is total; for a positive data length it is sound (it returns a fully
    defined completion of the allowed shape with exactly that many elements, compatible
    with it) and complete (if it returns nothing, no completion has that many elements). *)
Lemma C13_guess_shape_sound_complete_lemma :
  forall (allowed : shape) (n : nat), 0 < n ->
    exists r, guess_shape allowed n = Ok r /\
      (forall s, r = Some s -> completes allowed s /\ n_elems s = n /\ is_compatible_with s allowed = Ok true) /\
      (r = None -> forall s, completes allowed s -> n_elems s <> n).
Proof.
  intros allowed n Hn. rewrite guess_eq. eexists. split; [reflexivity|].
  destruct (is_fully_defined allowed) eqn:F.
  - apply is_fully_defined_iff in F. destruct (Nat.eqb_spec (n_elems allowed) n) as [En|En].
    + split; [|discriminate]. intros s H. injection H as <-. split; [|split; auto; apply compat_refl]. split; auto.
      destruct F as [Hne _]. destruct allowed as [|a al]; [congruence|]. clear. induction (a :: al); constructor; auto.
    + split; [discriminate|]. intros _ s [_ Hs]. destruct F as [Hne Hpos]. destruct allowed as [|a al]; [congruence|].
      replace s with (a :: al); auto. clear - Hs Hpos. revert Hpos. induction Hs as [|x y l l' Hxy H IH]; auto; intros Hp. inversion Hp; subst.
      rewrite IH by auto. destruct Hxy; [now subst|lia].
  - destruct allowed as [|a al] eqn:Es.
    + split; [|discriminate]. intros s H. injection H as <-. split; [split; [|reflexivity]|].
      * split; [discriminate|]. constructor; auto.
      * split; [|reflexivity]. cbn. lia.
    + rewrite <- Es in *. assert (Hne : allowed <> []) by (rewrite Es; discriminate).
      pose proof (not_defined_zero _ Hne F) as Ex.
      set (k := prod (filter (fun d0 => negb (d0 =? 0)) allowed)).
      assert (Hk : 0 < k). { apply prod_pos. apply Forall_forall. intros x Hx. apply filter_In in Hx. destruct Hx as [_ Hx]. apply negb_true_iff, Nat.eqb_neq in Hx. lia. }
      cbv zeta. destruct (Nat.eqb_spec (n mod k) 0) as [Em|Em].
      * split; [|discriminate]. intros s H. injection H as <-.
        assert (Hv : 0 < n / k). { pose proof (Nat.div_mod n k ltac:(lia)). destruct (n / k); [lia|lia]. }
        pose proof (fillz_completes allowed (n / k) Ex Hv) as HC. split; auto. split.
        -- rewrite n_elems_prod by apply HC. rewrite prod_fillz by auto. fold k. pose proof (Nat.div_mod n k ltac:(lia)). lia.
        -- destruct HC as [_ HC]. rewrite Es in HC. rewrite <- Es in HC. apply compat_same_rank_iff.
           ++ clear - HC. induction HC; cbn; auto.
           ++ clear - HC. induction HC; constructor; auto. unfold dim_agree. lia.
      * split; [discriminate|]. intros _ s HC Hs. destruct (completes_known allowed s Hne HC) as [m Hm]. fold k in Hm.
        apply Em. rewrite <- Hs, Hm. apply Nat.mod_mul. lia.
Qed.

(** The corner the claim misses: zero data values. A partially known shape is "completed"
    with a dimension 0, i.e. the result is still not fully defined. *)
Lemma C13_guess_no_data_refuted_lemma :
  forall (allowed : shape), is_fully_defined allowed = false ->
    exists s, guess_shape allowed 0 = Ok (Some s) /\ is_fully_defined s = false.
Proof.
  intros allowed F. rewrite guess_eq, F. destruct allowed as [|a al] eqn:Es.
  - exists [0]. split; auto.
  - rewrite <- Es in *. assert (Hne : allowed <> []) by (rewrite Es; discriminate).
    pose proof (not_defined_zero _ Hne F) as Ex.
    set (k := prod (filter (fun d0 => negb (d0 =? 0)) allowed)).
    assert (Hk : 0 < k). { apply prod_pos. apply Forall_forall. intros x Hx. apply filter_In in Hx. destruct Hx as [_ Hx]. apply negb_true_iff, Nat.eqb_neq in Hx. lia. }
    cbv zeta. rewrite Nat.mod_0_l, Nat.div_0_l by lia. cbn [Nat.eqb].
    exists (fillz allowed 0). split; auto. destruct (is_fully_defined (fillz allowed 0)) eqn:F2; auto.
    apply is_fully_defined_iff in F2. pose proof (prod_pos _ (proj2 F2)) as Hp. rewrite prod_fillz in Hp by auto. lia.
Qed.

(** is_compatible_with(data) accepts exactly the lengths guess_shape accepts, for a tensor
    without data (including every fully or partly undefined allowed shape) and for an
    allocated tensor whose allowed shape is fully defined and has as many elements. *)
Lemma C13_compatible_data_iff_guess_lemma :
  forall (t : tensor) (n : nat),
    is_alloc t = false \/ (is_fully_defined (allowed_shape t) = true /\ n_elems (alloc_shape t) = n_elems (allowed_shape t)) ->
    (t_compat_data t n = true <-> exists s, guess_shape (allowed_shape t) n = Ok (Some s)).
Proof.
  intros t n H.
  assert (E : t_compat_data t n = (if is_fully_defined (allowed_shape t) then n =? n_elems (allowed_shape t)
     else let known := n_known (allowed_shape t) in if 0 <? known then n mod known =? 0 else true)).
  { unfold t_compat_data. destruct (is_alloc t) eqn:A; auto.
    destruct H as [H|[F H]]; [discriminate|]. apply is_alloc_iff in A. destruct A as [A _].
    rewrite (proj2 (is_fully_defined_iff _) A), F, H. reflexivity. }
  rewrite E, guess_eq. clear E H.
  destruct (is_fully_defined (allowed_shape t)) eqn:F.
  - rewrite Nat.eqb_sym. destruct (n_elems (allowed_shape t) =? n); split; eauto; try discriminate.
    intros [s H]; discriminate.
  - destruct (allowed_shape t) as [|a al] eqn:Es; [split; eauto|]. rewrite <- Es in *.
    assert (Hne : allowed_shape t <> []) by (rewrite Es; discriminate).
    cbv zeta. rewrite n_known_spec by auto.
    set (k := prod (filter (fun d0 => negb (d0 =? 0)) (allowed_shape t))).
    assert (Hk : 0 < k). { apply prod_pos. apply Forall_forall. intros x Hx. apply filter_In in Hx. destruct Hx as [_ Hx]. apply negb_true_iff, Nat.eqb_neq in Hx. lia. }
    apply Nat.ltb_lt in Hk. rewrite Hk. destruct (n mod k =? 0); split; eauto; try discriminate. intros [s H]; discriminate.
Qed.

(** For an allocated tensor with a partially known allowed shape the two disagree. *)
Lemma C13_compatible_data_guess_differ_refuted_lemma :
  exists (w : world nat) t, run 0 0 init [ONew [0; 2]; OAllocateShape 0 [3; 2]] = Ok w /\ alive w 0 t /\
    is_alloc t = true /\ t_compat_data t 4 = false /\ guess_shape (allowed_shape t) 4 = Ok (Some [2; 2]).
Proof. eexists _, _. split; [vm_compute; reflexivity|]. repeat split. Qed.

(** loosely_guess_shape: for a non-empty allowed shape the guess has room for the data and
    wastes less than one slice of the known dimensions (nothing is returned exactly when a
    fully defined shape is too small). *)
Lemma C13_loosely_guess_holds_data_lemma :
  forall (allowed : shape) (n : nat), allowed <> [] -> 0 < n ->
    exists r, loosely_guess_shape allowed n = Ok r /\
      (forall s, r = Some s -> completes allowed s /\ n <= n_elems s /\
         (is_fully_defined allowed = false -> n_elems s < n + n_known allowed)) /\
      (r = None <-> is_fully_defined allowed = true /\ n_elems allowed < n).
Proof.
  intros allowed n Hne Hn. unfold loosely_guess_shape.
  destruct (is_fully_defined allowed) eqn:F.
  - eexists. split; [reflexivity|]. apply is_fully_defined_iff in F.
    destruct (Nat.leb_spec n (n_elems allowed)); split.
    + intros s H0. injection H0 as <-. split; [|split; auto; discriminate]. split; auto.
      destruct allowed as [|a al]; [congruence|]. clear. induction (a :: al); constructor; auto.
    + split; [discriminate|lia].
    + discriminate.
    + split; auto.
  - pose proof (not_defined_zero _ Hne F) as Ex.
    destruct (scan_unknown_eq allowed 0 (length allowed) (length allowed) 1) as [f [E Hf]]. rewrite E.
    rewrite Ex in Hf. rewrite Nat.mul_1_l. rewrite n_known_spec by auto. set (k := prod (filter (fun d0 => negb (d0 =? 0)) allowed)).
    assert (Hk : 0 < k). { apply prod_pos. apply Forall_forall. intros x Hx. apply filter_In in Hx. destruct Hx as [_ Hx]. apply negb_true_iff, Nat.eqb_neq in Hx. lia. }
    pose proof (first_zero_lt _ Ex). cbv zeta.
    rewrite wr_ok by (rewrite map_length; lia). cbn [bind]. eexists. split; [reflexivity|].
    split; [|split; [discriminate|intros [? _]; discriminate]].
    intros s Hs. injection Hs as <-.
    set (v := if n mod k =? 0 then n / k else S (n / k)).
    pose proof (Nat.div_mod n k ltac:(lia)) as Dm. pose proof (Nat.mod_upper_bound n k ltac:(lia)) as Um.
    assert (Hv : 0 < v). { unfold v. destruct (Nat.eqb_spec (n mod k) 0); [|lia]. destruct (n / k); lia. }
    replace f with (first_zero allowed) by lia. fold (fillz allowed v).
    pose proof (fillz_completes allowed v Ex Hv) as HC. split; auto.
    rewrite n_elems_prod by apply HC. rewrite prod_fillz by auto. fold k.
    unfold v. destruct (Nat.eqb_spec (n mod k) 0); [split; [lia|intros _; lia]|].
    replace (S (n / k) * k) with (k + k * (n / k)) by lia. lia.
Qed.

(** is_loosely_compatible_with(data): an allocated tensor accepts at most as many elements as
    it has; without data, with an allowed shape and for at least one element, it accepts
    exactly the lengths for which loosely_guess_shape gives a shape. *)
Lemma C13_loosely_compatible_lemma :
  forall (t : tensor) (n : nat),
    (is_alloc t = true -> (t_loosely_compat_data t n = true <-> n <= n_elems (alloc_shape t))) /\
    (is_alloc t = false -> allowed_shape t <> [] -> 0 < n ->
      (t_loosely_compat_data t n = true <-> exists s, loosely_guess_shape (allowed_shape t) n = Ok (Some s))).
Proof.
  intros t n. unfold t_loosely_compat_data. split.
  - intros A. rewrite A. apply is_alloc_iff in A. destruct A as [A _]. rewrite (proj2 (is_fully_defined_iff _) A). apply Nat.leb_le.
  - intros A Hne Hn. rewrite A. destruct (C13_loosely_guess_holds_data_lemma (allowed_shape t) n Hne Hn) as (r & E & _ & H2). rewrite E.
    destruct (is_fully_defined (allowed_shape t)) eqn:F.
    + rewrite Nat.leb_le. split.
      * intros L. destruct r as [s|]; [eauto|]. destruct (proj1 H2 eq_refl). lia.
      * intros [s Es]. injection Es as ->. destruct (Nat.le_gt_cases n (n_elems (allowed_shape t))); [assumption|]. discriminate (proj2 H2 (conj eq_refl H)).
    + split; [|reflexivity]. intros _. destruct r as [s|]; [eauto|]. destruct (proj1 H2 eq_refl). discriminate.
Qed.

(** with an undefined allowed shape it writes past the end of an empty vector *)
Lemma C13_loosely_guess_undefined_refuted_lemma :
  forall n : nat, loosely_guess_shape [] n = UB.
Proof. intros n. reflexivity. Qed.

Lemma C13_nonvacuous_lemma :
  guess_shape [2; 0; 0] 6 = Ok (Some [2; 3; 1]) /\ completes [2; 0; 0] [2; 3; 1] /\
  guess_shape [2; 0; 0] 7 = Ok None /\ loosely_guess_shape [2; 0; 0] 7 = Ok (Some [2; 4; 1]) /\
  map (t_loosely_compat_data (mkT None [] [2; 3])) [5; 6; 7] = [true; true; false].
Proof.
  split; [reflexivity|]. split; [|split; [reflexivity|split; reflexivity]].
  split; [split; [discriminate|repeat constructor]|repeat (apply Forall2_cons; [lia|]); apply Forall2_nil].
Qed.

(** ---- C14 ---- *)

(** In every reachable state, serializing an allocated tensor and loading the message into
    any other (or the same) live tensor restores both shapes and all data, provided the
    allowed shape has the rank of, and is compatible with, the allocated one. *)
Lemma C14_serialize_round_trip_lemma :
  forall (T : Type) (zero junk : T) (ops : list (op T)) (w : world T) i j t tj p,
    run zero junk init ops = Ok w -> owns w i t p -> alive w j tj ->
    length (alloc_shape t) = length (allowed_shape t) ->
    is_compatible_with (alloc_shape t) (allowed_shape t) = Ok true ->
    exists b pr w' t' p', t_expose (w_heap w) t = Ok b /\ t_serialize (w_heap w) t = Ok (Some pr) /\
      step zero junk w (OFromProto j pr) = Ok w' /\
      owns w' j t' p' /\ live w' p' b /\ alloc_shape t' = alloc_shape t /\ allowed_shape t' = allowed_shape t.
Proof.
  intros T zero junk ops w i j t tj p E [Ha Hr] Hj Hlen Hc.
  pose proof (run_inv zero junk ops _ _ Inv_init E) as [I1 _].
  destruct (I1 i t Ha p Hr) as [b [Hb [Hl Hd]]].
  assert (A : is_alloc t = true) by (apply is_alloc_iff; eauto).
  assert (Ex : t_expose (w_heap w) t = Ok b).
  { unfold t_expose. rewrite A. cbn [assert_ bind]. rewrite Hr, (hget_ok _ p b Hb). cbn [bind].
    now rewrite Hl, Nat.leb_refl, <- Hl, firstn_all. }
  set (pr := mkP b (allowed_shape t) (alloc_shape t)).
  destruct (t_from_proto_ok zero junk (w_heap w) tj pr (I1 j tj Hj)) as [h' [t' [ok [Ef [L [Ht Hf]]]]]].
  { exact Hlen. } { cbn [pr p_data p_alloc]. lia. }
  destruct ok.
  2:{ destruct (Hf eq_refl) as [_ [_ [_ [_ [C|C]]]]]; cbn [pr p_alloc p_allow] in C; [congruence|contradiction]. }
  destruct (Ht eq_refl) as [H1 [H2 [_ [_ [q [b' [Hq [Hn Hd']]]]]]]]. cbn [pr p_alloc p_allow p_data] in *.
  exists b, pr, (put w h' j (Some t')), t', q. split; auto.
  split. { unfold t_serialize. rewrite A, Ex. reflexivity. }
  cbn [step]. rewrite (lookup_ok w j tj Hj). cbn [bind]. rewrite Ef. cbn [bind fst snd]. split; auto.
  split. { split; auto. eapply alive_put; eauto. }
  split; auto. unfold live, put; cbn [w_heap]. replace b with b'; auto.
  destruct L as [_ [_ [_ L4]]]. destruct (L4 q Hq) as [_ [b2 [Hb2 [Hl2 _]]]]. rewrite Hn in Hb2. injection Hb2 as <-.
  apply nth_error_ext_lt; [congruence|]. intros k Hk. apply Hd'. rewrite Hl2, H2 in Hk. lia.
Qed.

(** serialize leaves a message for, and only for, an allocated tensor *)
Lemma C14_serialize_iff_allocated_lemma :
  forall (T : Type) (zero junk : T) (ops : list (op T)) (w : world T) i t,
    run zero junk init ops = Ok w -> alive w i t ->
    exists o, t_serialize (w_heap w) t = Ok o /\ (o <> None <-> is_alloc t = true).
Proof.
  intros T zero junk ops w i t E Ha.
  pose proof (run_inv zero junk ops _ _ Inv_init E) as [I1 _]. unfold t_serialize.
  destruct (is_alloc t) eqn:A.
  - pose proof A as A'. apply is_alloc_iff in A'. destruct A' as [_ [p Hr]].
    destruct (I1 i t Ha p Hr) as [b [Hb [Hl Hd]]].
    unfold t_expose. rewrite A. cbn [assert_ bind]. rewrite Hr, (hget_ok _ p b Hb). cbn [bind].
    rewrite Hl, Nat.leb_refl. cbn [bind]. eexists. split; [reflexivity|]. split; auto; discriminate.
  - eexists. split; [reflexivity|]. split; [congruence|discriminate].
Qed.

(** The round trip fails for a tensor whose allowed shape has another rank than its
    allocated shape: loading its own message aborts. *)
Lemma C14_rank_mismatch_refuted_lemma :
  exists (w : world nat) t pr, run 0 0 init [ONew []; OAllocateShape 0 [2]] = Ok w /\ alive w 0 t /\
    t_serialize (w_heap w) t = Ok (Some pr) /\ step 0 0 w (OFromProto 0 pr) = Abort.
Proof.
  eexists _, _, _. split; [vm_compute; reflexivity|]. split; [reflexivity|]. split; [vm_compute; reflexivity|]. reflexivity.
Qed.

(** Compiled with NDEBUG the buffer is never allocated (the call sits inside assert), so
    loading any non-empty consistent message writes through a null pointer. *)
Lemma C14_ndebug_load_refuted_lemma :
  forall (T : Type) (zero junk : T) (h : heap T) (t : tensor) (pr : proto T),
    raw t = None -> p_data pr <> [] -> is_fully_defined (p_alloc pr) = true ->
    is_compatible_with (p_alloc pr) (p_allow pr) = Ok true ->
    t_from_proto true zero junk h t pr = UB.
Proof.
  intros T zero junk h t pr R Hd F C. unfold t_from_proto. cbn [bind allowed_shape raw alloc_shape]. rewrite C. cbn [bind].
  rewrite F. cbn [negb orb]. unfold t_deallocate. rewrite R, is_alloc_none. cbn [bind raw alloc_shape allowed_shape assert_].
  destruct (p_data pr); [congruence|]. reflexivity.
Qed.

Lemma C14_nonvacuous_lemma :
  exists (w : world nat) t, run 0 0 init [ONew [2; 2]; OStore 0 1 4; ONew [0]] = Ok w /\ owns w 0 t 0 /\
    t_serialize (w_heap w) t = Ok (Some (mkP [0; 4; 0; 0] [2; 2] [2; 2])) /\ (exists tj, alive w 1 tj) /\
    is_compatible_with (alloc_shape t) (allowed_shape t) = Ok true.
Proof.
  eexists _, _. split; [vm_compute; reflexivity|]. split; [split; reflexivity|]. split; [reflexivity|].
  split; [eexists; reflexivity|reflexivity].
Qed.

(** ---- C15 ---- *)

(** What holds of a malformed message: when both shapes have the same rank and the data is
    not longer than the shape, loading completes; a message rejected for its shapes leaves
    heap, buffer and allocated shape alone. Not so: the allowed shape is overwritten, and
    longer data is not detected (refuted below). *)
Lemma C15_malformed_proto_lemma :
  forall (T : Type) (zero junk : T) (ops : list (op T)) (w : world T) i t (pr : proto T),
    run zero junk init ops = Ok w -> alive w i t ->
    length (p_alloc pr) = length (p_allow pr) -> length (p_data pr) <= n_elems (p_alloc pr) ->
    exists w', step zero junk w (OFromProto i pr) = Ok w' /\
      (is_fully_defined (p_alloc pr) = false \/ is_compatible_with (p_alloc pr) (p_allow pr) = Ok false ->
         w_heap w' = w_heap w /\
         exists t', alive w' i t' /\ raw t' = raw t /\ alloc_shape t' = alloc_shape t).
Proof.
  intros T zero junk ops w i t pr E Ha Hr Hd.
  pose proof (run_inv zero junk ops _ _ Inv_init E) as [I1 _].
  destruct (t_from_proto_ok zero junk (w_heap w) t pr (I1 i t Ha) Hr Hd) as [h' [t' [ok [Ef [_ [Ht Hf]]]]]].
  cbn [step]. rewrite (lookup_ok w i t Ha). cbn [bind]. rewrite Ef. cbn [bind fst snd].
  eexists. split; [reflexivity|]. intros HC. destruct ok.
  - destruct (Ht eq_refl) as [_ [_ [D [C _]]]]. apply is_fully_defined_iff in D. destruct HC; congruence.
  - destruct (Hf eq_refl) as [-> [R [Al _]]]. split; auto. exists t'. split; auto. eapply alive_put; eauto.
Qed.

(** a message whose shapes have different ranks stops the program *)
Lemma C15_rank_mismatch_aborts_lemma :
  forall (T : Type) (zero junk : T) (h : heap T) (t : tensor) (pr : proto T),
    length (p_alloc pr) <> length (p_allow pr) -> t_from_proto false zero junk h t pr = Abort.
Proof. intros T zero junk h t pr H. unfold t_from_proto. apply Nat.eqb_neq in H. rewrite H. reflexivity. Qed.

(** Refuted: a message with acceptable shapes but too much data writes past the buffer, in
    every reachable state. *)
Lemma C15_overlong_data_overflows_refuted_lemma :
  forall (T : Type) (zero junk : T) (ops : list (op T)) (w : world T) i t (pr : proto T),
    run zero junk init ops = Ok w -> alive w i t ->
    length (p_alloc pr) = length (p_allow pr) -> is_fully_defined (p_alloc pr) = true ->
    is_compatible_with (p_alloc pr) (p_allow pr) = Ok true ->
    n_elems (p_alloc pr) < length (p_data pr) ->
    step zero junk w (OFromProto i pr) = UB.
Proof.
  intros T zero junk ops w i t pr E Ha Hr F C Hd.
  pose proof (run_inv zero junk ops _ _ Inv_init E) as [I1 _]. pose proof (I1 i t Ha) as W.
  cbn [step]. rewrite (lookup_ok w i t Ha). cbn [bind].
  unfold t_from_proto. rewrite Hr, Nat.eqb_refl. cbn [assert_ bind allowed_shape raw alloc_shape]. rewrite C. cbn [bind].
  rewrite F. cbn [negb orb].
  set (t1 := mkT (raw t) (alloc_shape t) (p_allow pr)) in *.
  assert (W1 : wf (w_heap w) t1) by (intros p Hp; apply (W p Hp)).
  destruct (t_deallocate_ok (w_heap w) t1 W1) as [h1 [t1' [okd [Ed [_ [Al R1]]]]]]. rewrite Ed.
  cbn [bind]. rewrite Al, R1. cbn [t1 allowed_shape].
  unfold t_allocate. rewrite is_alloc_none. cbn [alloc_shape raw]. rewrite F.
  unfold t_allocate_shape. rewrite is_alloc_none. cbn [alloc_shape raw allowed_shape]. rewrite compat_refl. cbn [bind andb].
  rewrite C, F. cbn [bind andb halloc assert_ raw].
  rewrite (hget_ok _ (length h1) (repeat junk (n_elems (p_alloc pr)))) by (apply (halloc_fresh junk h1 (n_elems (p_alloc pr)))).
  cbn [bind].
  assert (memcpy (repeat junk (n_elems (p_alloc pr))) 0 (p_data pr) 0 (length (p_data pr)) = UB) as U.
  { unfold memcpy. set (n := n_elems (p_alloc pr)) in *.
    destruct (memcpy_ok (repeat junk n) (p_data pr) 0 0 n) as [d' [Em [Ld _]]].
    { rewrite repeat_length; lia. } { lia. }
    rewrite repeat_length in Ld.
    apply (for_exit _ _ n _ d' UB); auto; [|discriminate].
    destruct (rd_lt (p_data pr) (0 + n)) as [x [_ Ex]]; [lia|]. rewrite Ex. cbn [bind].
    unfold wr. destruct (Nat.ltb_spec (0 + n) (length d')); auto; lia. }
  rewrite U. reflexivity.
Qed.

(** Refuted: a rejected message still replaces the allowed shape. *)
Lemma C15_rejected_proto_changes_shape_refuted_lemma :
  exists (w w' : world nat) t t', run 0 0 init [ONew [2; 2]] = Ok w /\ alive w 0 t /\
    step 0 0 w (OFromProto 0 (mkP [1] [3; 3] [4; 4])) = Ok w' /\ alive w' 0 t' /\
    allowed_shape t = [2; 2] /\ allowed_shape t' = [3; 3] /\ alloc_shape t' = [2; 2].
Proof.
  eexists _, _, _, _. split; [vm_compute; reflexivity|]. split; [reflexivity|]. split; [vm_compute; reflexivity|].
  repeat split.
Qed.

Lemma C15_nonvacuous_lemma :
  exists w : world nat, run 0 0 init [ONew [2; 2]] = Ok w /\ (exists t, alive w 0 t) /\
    is_compatible_with [4; 4] [3; 3] = Ok false /\ n_elems [2] < length [1; 2; 3] /\
    is_compatible_with [2] [2] = Ok true.
Proof.
  eexists. split; [vm_compute; reflexivity|]. split; [eexists; reflexivity|]. repeat split; auto.
Qed.

(** ---- C49 ---- *)

Lemma local_frame {T} (h : heap T) t h' t' i j p b (w : world T) :
  Inv w -> h = w_heap w -> local h t h' t' -> (raw t = None \/ alive w i t) -> j <> i -> forall tj, owns w j tj p -> live w p b ->
  nth_error h' p = Some (Some b).
Proof.
  intros [I1 [I2 I3]] -> [_ [L _]] Hi Hne tj Ho Hl. rewrite L; auto.
  - now apply nth_error_lt in Hl.
  - intros R. destruct Hi as [Hi|Hi]; [congruence|]. apply Hne. apply (I2 j i tj t p); auto. split; auto.
Qed.

Lemma frame_put {T} (w : world T) h i x j tj : alive w j tj -> j <> i -> alive (put w h i x) j tj.
Proof. intros H Hn. unfold alive, put in *; cbn [w_ts]. rewrite nth_error_set_nth_neq; auto. Qed.

Lemma frame_add {T} (w : world T) h t j tj : alive w j tj -> alive (add w h t) j tj.
Proof. intros H. unfold alive, add in *; cbn [w_ts]. rewrite nth_error_app1; auto. now apply nth_error_lt in H. Qed.

(** Isolation: an operation performed on other tensors leaves a tensor's shape, address
    and data exactly as they were, in every reachable state. *)
Lemma C49_other_tensors_unchanged_lemma :
  forall (T : Type) (zero junk : T) (ops : list (op T)) (w w' : world T) (o : op T) j t p b,
    run zero junk init ops = Ok w -> step zero junk w o = Ok w' ->
    ~ touches o j -> owns w j t p -> live w p b ->
    owns w' j t p /\ live w' p b.
Proof.
  intros T zero junk ops w w' o j t p b Er E Ht Ho Hl.
  pose proof (run_inv zero junk ops _ _ Inv_init Er) as HI. pose proof HI as [I1 [I2 I3]].
  pose proof Ho as [Ha Hr].
  assert (B : wf (w_heap w) blank) by (intros q; discriminate).
  assert (Put : forall i ti h' t', alive w i ti -> j <> i -> local (w_heap w) ti h' t' ->
     forall x, owns (put w h' i x) j t p /\ live (put w h' i x) p b).
  { intros i ti h' t' Hi Hn L x. split; [split; auto; now apply frame_put|].
    apply (local_frame (w_heap w) ti h' t' i j p b w HI eq_refl L (or_intror Hi) Hn t Ho Hl). }
  assert (Add : forall h' t', local (w_heap w) blank h' t' -> owns (add w h' t') j t p /\ live (add w h' t') p b).
  { intros h' t' L. split; [split; auto; now apply frame_add|].
    apply (local_frame (w_heap w) blank h' t' (S j) j p b w HI eq_refl L (or_introl eq_refl) (Nat.neq_succ_diag_r j) t Ho Hl). }
  destruct o; cbn [step touches] in *.
  - destruct (t_new_ok junk (w_heap w) s) as [L _]. destruct (t_new junk (w_heap w) s) as [h' t0]. injection E as <-. auto.
  - destruct (t_new_scalar_ok junk (w_heap w) v) as [h' [t0 [E' [L _]]]]. rewrite E' in E. cbn in E. injection E as <-. auto.
  - destruct (lookup w i) as [t0| | |] eqn:H0; try discriminate. apply lookup_inv in H0. cbn [bind] in E.
    destruct (t_copy_helper_ok junk (w_heap w) blank t0 shapeonly) as [h' [t' [E' [L _]]]]; auto.
    { apply (I1 i t0 H0). } { discriminate. }
    rewrite E' in E. cbn in E. injection E as <-. auto.
  - destruct (lookup w i) as [t0| | |] eqn:H0; try discriminate. apply lookup_inv in H0. cbn in E. injection E as <-.
    split; [split; auto; apply (frame_add (put w (w_heap w) i _)); apply frame_put; auto|]. exact Hl.
  - destruct (lookup w i) as [ti| | |] eqn:Hi; try discriminate. apply lookup_inv in Hi. cbn [bind] in E.
    destruct (lookup w j0) as [tj| | |] eqn:Hj; try discriminate. apply lookup_inv in Hj. cbn [bind] in E.
    destruct (Nat.eqb_spec i j0); [injection E as <-; auto|].
    destruct (t_copy_helper_ok junk (w_heap w) ti tj false) as [h' [t' [E' [L _]]]].
    { apply (I1 i ti Hi). } { apply (I1 j0 tj Hj). }
    { intros q Hq. eapply (Inv_raw_neq w i j0); eauto. }
    rewrite E' in E. cbn in E. injection E as <-. eapply Put; eauto.
  - destruct (lookup w i) as [ti| | |] eqn:Hi; try discriminate. apply lookup_inv in Hi. cbn [bind] in E.
    destruct (lookup w j0) as [tj| | |] eqn:Hj; try discriminate. apply lookup_inv in Hj. cbn [bind] in E.
    destruct (Nat.eqb_spec i j0); [injection E as <-; auto|]. unfold t_move_helper in E.
    destruct (local_free (w_heap w) ti [] [] (I1 i ti Hi)) as [h' [E' L]]. rewrite E' in E. cbn in E. injection E as <-.
    destruct (Put i ti h' _ Hi ltac:(tauto) L (Some (mkT (raw tj) (alloc_shape tj) (allowed_shape tj)))) as [[P1 P2] P3].
    split; [split; auto; apply frame_put; auto|exact P3].
  - destruct (lookup w i) as [t0| | |] eqn:H0; try discriminate. apply lookup_inv in H0. cbn [bind] in E.
    destruct (t_set_shape_ok zero junk (w_heap w) t0 s (I1 i t0 H0)) as [c [h' [t' [_ [E' [L _]]]]]]. rewrite E' in E. cbn in E.
    injection E as <-. eapply Put; eauto.
  - destruct (lookup w i) as [t0| | |] eqn:H0; try discriminate. apply lookup_inv in H0. cbn [bind] in E.
    destruct (t_allocate_ok zero junk (w_heap w) t0 (I1 i t0 H0)) as [h' [t' [ok [E' [L _]]]]]. rewrite E' in E. cbn in E.
    injection E as <-. eapply Put; eauto.
  - destruct (lookup w i) as [t0| | |] eqn:H0; try discriminate. apply lookup_inv in H0. cbn [bind] in E.
    destruct (t_allocate_shape_ok zero junk (w_heap w) t0 s (I1 i t0 H0)) as [h' [t' [ok [E' [L _]]]]]. rewrite E' in E. cbn in E.
    injection E as <-. eapply Put; eauto.
  - destruct (lookup w i) as [t0| | |] eqn:H0; try discriminate. apply lookup_inv in H0. cbn [bind] in E.
    destruct (t_deallocate_ok (w_heap w) t0 (I1 i t0 H0)) as [h' [t' [ok [E' [L _]]]]]. rewrite E' in E. cbn in E.
    injection E as <-. eapply Put; eauto.
  - destruct (lookup w i) as [ti| | |] eqn:Hi; try discriminate. apply lookup_inv in Hi. cbn [bind] in E.
    destruct (lookup w j0) as [tj| | |] eqn:Hj; try discriminate. apply lookup_inv in Hj. cbn [bind] in E.
    destruct (t_copy_from_ok zero junk (w_heap w) ti tj s (I1 i ti Hi) (I1 j0 tj Hj)) as [h' [t' [ok [E' [L _]]]]]. rewrite E' in E. cbn in E.
    injection E as <-. eapply Put; eauto.
  - destruct (lookup w i) as [t0| | |] eqn:H0; try discriminate. apply lookup_inv in H0. cbn [bind] in E.
    destruct (raw t0) as [q|] eqn:R; [|discriminate].
    destruct (hget (w_heap w) q) as [bq| | |]; try discriminate. cbn [bind] in E.
    destruct (wr bq k v) as [b'| | |]; try discriminate. cbn in E. injection E as <-. split; auto.
    unfold live, hput; cbn [w_heap]. rewrite nth_error_set_nth_neq; auto.
    intros ->. apply Ht. apply (I2 j i t t0 p); auto. split; auto.
  - destruct (lookup w i) as [t0| | |] eqn:H0; try discriminate. apply lookup_inv in H0. cbn [bind] in E.
    destruct (t_from_proto false zero junk (w_heap w) t0 pr) as [[[h' t'] ok]| | |] eqn:E'; try discriminate.
    cbn in E. injection E as <-. eapply Put; eauto. eapply t_from_proto_inv; eauto.
  - destruct (lookup w i) as [t0| | |] eqn:H0; try discriminate. apply lookup_inv in H0. cbn [bind] in E.
    unfold t_destroy in E.
    destruct (local_free (w_heap w) t0 [] [] (I1 i t0 H0)) as [h' [E' L]]. rewrite E' in E. cbn in E. injection E as <-.
    eapply Put; eauto.
Qed.

(** A copy (constructor or clone) is a new tensor with equal shapes and equal data in its
    own buffer, and the original is untouched. *)
Lemma C49_copy_equals_original_lemma :
  forall (T : Type) (zero junk : T) (ops : list (op T)) (w : world T) i t p b,
    run zero junk init ops = Ok w -> owns w i t p -> live w p b ->
    exists w' t' p', step zero junk w (OCopy i false) = Ok w' /\
      owns w' (length (w_ts w)) t' p' /\ live w' p' b /\ p' <> p /\
      alloc_shape t' = alloc_shape t /\ allowed_shape t' = allowed_shape t /\
      owns w' i t p /\ live w' p b.
Proof.
  intros T zero junk ops w i t p b E Ho Hl. pose proof Ho as [Ha Hr].
  pose proof (run_inv zero junk ops _ _ Inv_init E) as HI. pose proof HI as [I1 [I2 I3]].
  destruct (I1 i t Ha p Hr) as [b0 [Hb [_ Hd]]].
  assert (A : is_alloc t = true) by (apply is_alloc_iff; eauto).
  destruct (t_copy_helper_ok junk (w_heap w) blank t false) as [h' [t' [E' [L [Ea [Eb [Hc _]]]]]]].
  { intros q; discriminate. } { apply (I1 i t Ha). } { discriminate. }
  destruct (Hc A eq_refl p b Hr Hl) as [q [Hq Hn]].
  assert (Es : step zero junk w (OCopy i false) = Ok (add w h' t')).
  { cbn [step]. rewrite (lookup_ok w i t Ha). cbn [bind]. rewrite E'. reflexivity. }
  destruct (C49_other_tensors_unchanged_lemma T zero junk ops w _ (OCopy i false) i t p b E Es) as [F1 F2]; auto.
  exists (add w h' t'), t', q. split; auto. split.
  { split; auto. unfold alive, add; cbn [w_ts]. rewrite nth_error_app2, Nat.sub_diag by lia. reflexivity. }
  split; [exact Hn|]. split; auto.
  intros ->. destruct L as [_ [_ [_ L4]]]. destruct (L4 p Hq) as [[Hge|Hc'] _]; [|discriminate].
  unfold live in Hl. apply nth_error_lt in Hl. lia.
Qed.

Lemma C49_nonvacuous_lemma :
  exists w w' : world nat, run 0 0 init [ONew [2]; OStore 0 1 5; OCopy 0 false] = Ok w /\
    live w 1 [0; 5] /\ step 0 0 w (OStore 0 0 8) = Ok w' /\ ~ touches (@OStore nat 0 0 8) 1 /\
    live w' 0 [8; 5] /\ live w' 1 [0; 5].
Proof.
  eexists _, _. split; [vm_compute; reflexivity|]. split; [reflexivity|]. split; [vm_compute; reflexivity|].
  split; [cbn; lia|]. split; reflexivity.
Qed.

(** copy_from(other, s) with s fully defined gives the tensor shape s and the elements of
    other at the coordinates common to both shapes, zero elsewhere; other is unchanged. *)
Lemma C11_copy_from_fits_data_lemma :
  forall (T : Type) (zero junk : T) (ops : list (op T)) (w : world T) i ti j tj p b (s : shape),
    run zero junk init ops = Ok w -> alive w i ti -> owns w j tj p -> live w p b -> is_fully_defined s = true ->
    exists w' t' p' b', step zero junk w (OCopyFrom i j s) = Ok w' /\
      owns w' i t' p' /\ live w' p' b' /\ alloc_shape t' = s /\ length b' = n_elems s /\
      (forall c, in_bounds s c -> belongs (alloc_shape tj) c ->
         nth_error b' (offset s c) = nth_error b (offset (alloc_shape tj) c)) /\
      (forall c, in_bounds s c -> ~ belongs (alloc_shape tj) c -> nth_error b' (offset s c) = Some zero) /\
      (i <> j -> owns w' j tj p /\ live w' p b).
Proof.
  intros T zero junk ops w i ti j tj p b s E Hi [Ha Hr] Hb F.
  pose proof (run_inv zero junk ops _ _ Inv_init E) as HI. pose proof HI as [I1 _].
  destruct (I1 j tj Ha p Hr) as [b0 [Hb0 [Hl Hd]]]. unfold live in Hb. rewrite Hb in Hb0. injection Hb0 as <-.
  assert (A : is_alloc tj = true) by (apply is_alloc_iff; eauto).
  pose proof F as Fd. apply is_fully_defined_iff in Fd.
  assert (Es : exists h' b', step zero junk w (OCopyFrom i j s) =
     Ok (put w h' i (Some (mkT (Some (length (w_heap w))) s
          (match is_compatible_with (allowed_shape ti) s with Ok true => allowed_shape ti | _ => s end)))) /\
     nth_error h' (length (w_heap w)) = Some (Some b') /\ length b' = n_elems s /\
     forall c, in_bounds s c -> nth_error b' (offset s c) =
        if belongsb (alloc_shape tj) c then nth_error b (offset (alloc_shape tj) c) else Some zero).
  { cbn [step]. rewrite (lookup_ok w i ti Hi), (lookup_ok w j tj Ha). cbn [bind]. unfold t_copy_from. rewrite A, F. cbn [andb].
    destruct (compat_total (allowed_shape ti) s) as [c Ec]. rewrite Ec. cbn [bind halloc].
    rewrite (hget_ok _ (length (w_heap w)) (repeat junk (n_elems s))) by (apply (halloc_fresh junk (w_heap w) (n_elems s))). cbn [bind].
    rewrite Hr. assert (Hlt : p < length (w_heap w)) by now apply nth_error_lt in Hb.
    rewrite (hget_ok _ p b) by (rewrite nth_error_app1; auto). cbn [bind]. unfold get_shape. rewrite A.
    destruct (fit_toshape_ok zero (repeat junk (n_elems s)) s b (alloc_shape tj) Fd Hd) as [d' [Ef [Ld [Hc _]]]].
    { rewrite repeat_length; lia. } { lia. }
    rewrite Ef. cbn [bind]. rewrite hput_app_fresh. rewrite repeat_length in Ld.
    destruct (local_realloc (w_heap w) ti (length (w_heap w)) d' s (if c then allowed_shape ti else s) (I1 i ti Hi) Fd Ld eq_refl _ eq_refl) as [h' [E' [L N]]].
    assert (E2 : (if is_alloc ti then hfree (w_heap w ++ [Some d']) (raw ti) else @Ok (heap T) (w_heap w ++ [Some d'])) = Ok h').
    { destruct (is_alloc ti) eqn:At; auto. pose proof (wf_not_alloc (w_heap w) ti (I1 i ti Hi) At) as R. rewrite R in E'. exact E'. }
    rewrite E2. cbn [bind fst snd]. exists h', d'. split; [destruct c; reflexivity|]. split; auto. }
  destruct Es as [h' [b' [Es [Hn [Lb Hc]]]]]. eexists _, _, (length (w_heap w)), b'. split; [exact Es|].
  split; [split; [eapply alive_put; eauto|reflexivity]|]. split; [exact Hn|]. split; [reflexivity|]. split; auto.
  split; [|split].
  - intros c0 Hc0 Hbe. rewrite Hc by auto. now rewrite (proj2 (belongsb_iff _ c0) Hbe).
  - intros c0 Hc0 Hbe. rewrite Hc by auto. destruct (belongsb (alloc_shape tj) c0) eqn:B; auto.
    apply belongsb_iff in B. contradiction.
  - intros Hne. apply (C49_other_tensors_unchanged_lemma T zero junk ops w _ (OCopyFrom i j s) j tj p b E Es); cbn; auto.
    split; auto.
Qed.

(** A move hands over the very buffer with its data and leaves the source without one. *)
Lemma C49_move_transfers_lemma :
  forall (T : Type) (zero junk : T) (ops : list (op T)) (w : world T) i t p b,
    run zero junk init ops = Ok w -> owns w i t p -> live w p b ->
    exists w' t', step zero junk w (OMove i) = Ok w' /\
      owns w' (length (w_ts w)) t' p /\ live w' p b /\
      alloc_shape t' = alloc_shape t /\ allowed_shape t' = allowed_shape t /\
      exists t0, alive w' i t0 /\ is_alloc t0 = false.
Proof.
  intros T zero junk ops w i t p b E [Ha Hr] Hl. cbn [step]. rewrite (lookup_ok w i t Ha).
  cbn [bind t_move_helper hfree raw blank]. eexists _, (mkT (raw t) (alloc_shape t) (allowed_shape t)). split; [reflexivity|].
  assert (Hi : i < length (w_ts w)) by (unfold alive in Ha; now apply nth_error_lt in Ha).
  split.
  { split; [|exact Hr]. unfold alive, add, put; cbn [w_ts]. rewrite nth_error_app2; rewrite length_set_nth; [|lia].
    now rewrite Nat.sub_diag. }
  split; [exact Hl|]. split; auto. split; auto. exists (mkT None [] []). split; [|reflexivity].
  unfold alive, add, put; cbn [w_ts]. rewrite nth_error_app1 by (rewrite length_set_nth; lia). now apply nth_error_set_nth_eq.
Qed.
