From Verif Require Import Common ShapeModel ShapeSpec ShapeProofs FitModel FitProofs TensorModel TensorSpec.

Section WithT.
Context {T : Type} (zero junk : T).

Definition wf (h : heap T) (t : tensor) : Prop :=
  forall p, raw t = Some p -> exists b, nth_error h p = Some (Some b) /\
    length b = n_elems (alloc_shape t) /\ defined (alloc_shape t).

Definition Inv (w : world T) : Prop :=
  (forall i t, alive w i t -> wf (w_heap w) t) /\
  (forall i j t t' p, owns w i t p -> owns w j t' p -> i = j) /\
  (forall p b, live w p b -> exists i t, owns w i t p).

Definition local (h : heap T) (t : tensor) (h' : heap T) (t' : tensor) : Prop :=
  length h <= length h' /\
  (forall p, p < length h -> raw t <> Some p -> nth_error h' p = nth_error h p) /\
  (forall p b, nth_error h' p = Some (Some b) -> length h <= p \/ raw t = Some p -> raw t' = Some p) /\
  (forall p, raw t' = Some p -> (length h <= p \/ raw t = Some p) /\
     exists b, nth_error h' p = Some (Some b) /\ length b = n_elems (alloc_shape t') /\ defined (alloc_shape t')).

Lemma Inv_init : Inv (@init T).
Proof.
  split; [|split].
  - intros [|i] t H; discriminate.
  - intros [|i] j t t' p [H _]; discriminate.
  - intros [|p] b H; discriminate.
Qed.

Lemma local_other h t h' t' t2 :
  local h t h' t' -> wf h t2 -> (forall p, raw t = Some p -> raw t2 <> Some p) -> wf h' t2.
Proof.
  intros [L1 [L2 _]] W N p Hp. destruct (W p Hp) as [b [H1 H2]].
  exists b. split; auto. rewrite L2; auto.
  - now apply nth_error_lt in H1.
  - intros E. exact (N p E Hp).
Qed.

Lemma Inv_update w i t h' t' :
  Inv w -> alive w i t -> local (w_heap w) t h' t' -> Inv (put w h' i (Some t')).
Proof.
  intros [I1 [I2 I3]] Ha L. pose proof L as [L1 [L2 [L3 L4]]].
  unfold alive in Ha. assert (Hi : i < length (w_ts w)) by now apply nth_error_lt in Ha.
  assert (Hn : forall j, nth_error (set_nth i (Some t') (w_ts w)) j =
      if i =? j then Some (Some t') else nth_error (w_ts w) j).
  { intros j. rewrite nth_error_set_nth. destruct (Nat.ltb_spec i (length (w_ts w))); [|lia].
    now rewrite andb_true_r. }
  split; [|split]; unfold alive, owns, live, put; cbn [w_heap w_ts].
  - intros j t2 Hj. rewrite Hn in Hj. destruct (Nat.eqb_spec i j) as [<-|Hne].
    + injection Hj as <-. intros p Hp. destruct (L4 p Hp) as [_ H]; auto.
    + apply (local_other (w_heap w) t h' t'); auto.
      * apply (I1 j); auto.
      * intros p Hp Hp2. apply Hne. apply (I2 i j t t2 p); split; auto.
  - intros j k tj tk p [Hj Hpj] [Hk Hpk]. rewrite Hn in Hj, Hk.
    destruct (Nat.eqb_spec i j) as [<-|Hnj], (Nat.eqb_spec i k) as [<-|Hnk]; auto.
    + injection Hj as <-. exfalso. destruct (L4 p Hpj) as [[Hge|Hr] _].
      * destruct (I1 k tk Hk p Hpk) as [b [Hb _]]. apply nth_error_lt in Hb. lia.
      * apply Hnk. apply (I2 i k t tk p); split; auto.
    + injection Hk as <-. exfalso. destruct (L4 p Hpk) as [[Hge|Hr] _].
      * destruct (I1 j tj Hj p Hpj) as [b [Hb _]]. apply nth_error_lt in Hb. lia.
      * apply Hnj. apply (I2 i j t tj p); split; auto.
    + apply (I2 j k tj tk p); split; auto.
  - intros p b Hp.
    destruct (Nat.lt_ge_cases p (length (w_heap w))) as [Hlt|Hge].
    + assert (D : raw t = Some p \/ raw t <> Some p).
      { destruct (raw t) as [q|]; [|right; discriminate].
        destruct (Nat.eq_dec q p) as [->|]; [left; auto|right; congruence]. }
      destruct D as [D|D].
      * exists i, t'. rewrite Hn, Nat.eqb_refl. split; auto. apply (L3 p b); auto.
      * rewrite L2 in Hp by auto. destruct (I3 p b Hp) as [j [t2 [Hj Hr]]].
        exists j, t2. rewrite Hn. destruct (Nat.eqb_spec i j) as [<-|]; [|split; auto].
        unfold owns in *. rewrite Ha in Hj. congruence.
    + exists i, t'. rewrite Hn, Nat.eqb_refl. split; auto. apply (L3 p b); auto.
Qed.

Lemma Inv_destroy w i t h' :
  Inv w -> alive w i t -> local (w_heap w) t h' blank -> Inv (put w h' i None).
Proof.
  intros HI Ha L. pose proof (Inv_update w i t h' blank HI Ha L) as [J1 [J2 J3]].
  unfold alive in Ha. assert (Hi : i < length (w_ts w)) by now apply nth_error_lt in Ha.
  assert (Hn : forall x j, nth_error (set_nth i x (w_ts w)) j =
      if i =? j then Some x else nth_error (w_ts w) j).
  { intros x j. rewrite nth_error_set_nth. destruct (Nat.ltb_spec i (length (w_ts w))); [|lia].
    now rewrite andb_true_r. }
  unfold alive, owns, live, put in *; cbn [w_heap w_ts] in *.
  split; [|split]; unfold alive, owns, live, put; cbn [w_heap w_ts].
  - intros j t2 Hj. apply (J1 j). rewrite Hn in Hj. rewrite Hn. destruct (i =? j); congruence.
  - intros j k tj tk p [Hj Hpj] [Hk Hpk]. apply (J2 j k tj tk p); split; auto; rewrite Hn in *;
      destruct (i =? j), (i =? k); congruence.
  - intros p b Hp. destruct (J3 p b Hp) as [j [t2 [Hj Hr]]]. exists j, t2. split; auto.
    rewrite Hn in Hj. rewrite Hn. destruct (i =? j); auto. injection Hj as <-. discriminate.
Qed.

Lemma Inv_add w h' t' :
  Inv w -> local (w_heap w) blank h' t' -> Inv (add w h' t').
Proof.
  intros [I1 [I2 I3]] L. pose proof L as [L1 [L2 [L3 L4]]].
  assert (Hn : forall j x, nth_error (w_ts w ++ [Some t']) j = Some x <->
      (nth_error (w_ts w) j = Some x \/ (j = length (w_ts w) /\ x = Some t'))).
  { intros j x. destruct (Nat.lt_ge_cases j (length (w_ts w))).
    - rewrite nth_error_app1 by auto. split; auto. intros [|[]]; auto; lia.
    - rewrite nth_error_app2 by auto. rewrite (proj2 (nth_error_None (w_ts w) j)) by auto.
      destruct (j - length (w_ts w)) as [|k] eqn:E.
      + simpl. split; [intros; right; split; [lia|congruence]|intros [|[_ ->]]; congruence].
      + simpl. split; [destruct k; discriminate|intros [|[]]; [congruence|lia]]. }
  split; [|split]; unfold alive, owns, live, add; cbn [w_heap w_ts].
  - intros j t2 Hj. apply Hn in Hj. destruct Hj as [Hj|[_ Hj]].
    + apply (local_other (w_heap w) blank h' t'); auto; [apply (I1 j); auto|discriminate].
    + injection Hj as ->. intros p Hp. destruct (L4 p Hp) as [_ H]; auto.
  - assert (K : forall k tk p, nth_error (w_ts w) k = Some (Some tk) -> raw tk = Some p -> raw t' = Some p -> False).
    { intros k tk p Hk Hp Hp'. destruct (L4 p Hp') as [[Hge|Hr] _]; [|discriminate].
      destruct (I1 k tk Hk p Hp) as [b [Hb _]]. apply nth_error_lt in Hb. lia. }
    intros j k tj tk p [Hj Hpj] [Hk Hpk]. apply Hn in Hj, Hk.
    destruct Hj as [Hj|[Ej Hj]], Hk as [Hk|[Ek Hk]].
    + apply (I2 j k tj tk p); split; auto.
    + injection Hk as ->. exfalso; eauto.
    + injection Hj as ->. exfalso; eauto.
    + congruence.
  - intros p b Hp.
    destruct (Nat.lt_ge_cases p (length (w_heap w))) as [Hlt|Hge].
    + rewrite L2 in Hp by (auto; discriminate). destruct (I3 p b Hp) as [j [t2 [Hj Hr]]].
      exists j, t2. split; auto. apply Hn; auto.
    + exists (length (w_ts w)), t'. split; [apply Hn; auto|]. apply (L3 p b); auto.
Qed.

(** moving a buffer from tensor [j] to a tensor [i] that owns none *)
Lemma Inv_transfer w i j ti tj al1 al2 :
  Inv w -> alive w i ti -> raw ti = None -> alive w j tj -> i <> j ->
  Inv (mkW (w_heap w) (set_nth j (Some (mkT None al1 al2))
        (set_nth i (Some (mkT (raw tj) (alloc_shape tj) (allowed_shape tj))) (w_ts w)))).
Proof.
  intros [I1 [I2 I3]] Hi Hr Hj Hne. unfold alive in *.
  assert (Li : i < length (w_ts w)) by now apply nth_error_lt in Hi.
  assert (Lj : j < length (w_ts w)) by now apply nth_error_lt in Hj.
  set (t' := mkT (raw tj) (alloc_shape tj) (allowed_shape tj)). set (o' := mkT None al1 al2).
  assert (Hn : forall k, nth_error (set_nth j (Some o') (set_nth i (Some t') (w_ts w))) k =
     if j =? k then Some (Some o') else if i =? k then Some (Some t') else nth_error (w_ts w) k).
  { intros k. rewrite nth_error_set_nth, length_set_nth, nth_error_set_nth.
    destruct (Nat.ltb_spec j (length (w_ts w))); [|lia].
    destruct (Nat.ltb_spec i (length (w_ts w))); [|lia]. now rewrite !andb_true_r. }
  split; [|split]; unfold alive, owns, live; cbn [w_heap w_ts].
  - intros k tk Hk. rewrite Hn in Hk. destruct (Nat.eqb_spec j k).
    + injection Hk as <-. intros p; discriminate.
    + destruct (Nat.eqb_spec i k).
      * injection Hk as <-. intros p Hp. apply (I1 j tj Hj p Hp).
      * apply (I1 k); auto.
  - intros k l tk tl p [Hk Hpk] [Hl Hpl]. rewrite Hn in Hk, Hl.
    destruct (Nat.eqb_spec j k); [injection Hk as <-; discriminate|].
    destruct (Nat.eqb_spec j l); [injection Hl as <-; discriminate|].
    destruct (Nat.eqb_spec i k), (Nat.eqb_spec i l); subst; auto.
    + injection Hk as <-. exfalso. assert (j = l) by (apply (I2 j l tj tl p); split; auto). congruence.
    + injection Hl as <-. exfalso. assert (j = k) by (apply (I2 j k tj tk p); split; auto). congruence.
    + apply (I2 k l tk tl p); split; auto.
  - intros p b Hp. destruct (I3 p b Hp) as [k [tk [Hk Hpk]]].
    destruct (Nat.eq_dec k j) as [->|].
    + rewrite Hj in Hk. injection Hk as <-. exists i, t'. rewrite Hn.
      destruct (Nat.eqb_spec j i); [congruence|]. rewrite Nat.eqb_refl. split; auto.
    + exists k, tk. rewrite Hn. destruct (Nat.eqb_spec j k); [congruence|].
      destruct (Nat.eqb_spec i k) as [->|]; [|split; auto]. rewrite Hi in Hk. congruence.
Qed.

Lemma Inv_transfer_new w j tj al1 al2 :
  Inv w -> alive w j tj ->
  Inv (mkW (w_heap w) (set_nth j (Some (mkT None al1 al2)) (w_ts w) ++
        [Some (mkT (raw tj) (alloc_shape tj) (allowed_shape tj))])).
Proof.
  intros HI Hj.
  pose proof (Inv_add w (w_heap w) (mkT None [] []) HI) as HA.
  assert (L : local (w_heap w) blank (w_heap w) (mkT None [] [])).
  { split; auto. split; auto. split; [|discriminate].
    intros p b Hp [Hge|]; [|discriminate]. apply nth_error_lt in Hp; lia. }
  specialize (HA L). clear L.
  unfold alive in Hj. assert (Lj : j < length (w_ts w)) by now apply nth_error_lt in Hj.
  pose proof (Inv_transfer _ (length (w_ts w)) j (mkT None [] []) tj al1 al2 HA) as HT.
  unfold alive, add in HT; cbn [w_ts w_heap] in HT.
  assert (E : set_nth (length (w_ts w)) (Some (mkT (raw tj) (alloc_shape tj) (allowed_shape tj)))
      (w_ts w ++ [Some (mkT None [] [])]) =
      w_ts w ++ [Some (mkT (raw tj) (alloc_shape tj) (allowed_shape tj))]).
  { generalize (w_ts w). induction l as [|x l IH]; simpl; auto. now f_equal. }
  assert (E2 : forall x y (l : list (option tensor)), j < length l -> set_nth j x (l ++ [y]) = set_nth j x l ++ [y]).
  { clear. intros x y l. revert j. induction l as [|z l IH]; intros [|j] H; simpl in *; try lia; auto.
    f_equal; apply IH; lia. }
  rewrite E, E2 in HT by auto. apply HT; auto.
  - rewrite nth_error_app2, Nat.sub_diag by lia. reflexivity.
  - rewrite nth_error_app1 by auto. exact Hj.
  - lia.
Qed.

(** ---- heap primitives ---- *)

Lemma halloc_fresh (h : heap T) n : nth_error (fst (halloc junk h n)) (length h) = Some (Some (repeat junk n)).
Proof. simpl. rewrite nth_error_app2, Nat.sub_diag by lia. reflexivity. Qed.

Lemma halloc_old (h : heap T) n p : p < length h -> nth_error (fst (halloc junk h n)) p = nth_error h p.
Proof. intros; simpl. now rewrite nth_error_app1. Qed.

Lemma hget_ok (h : heap T) p b : nth_error h p = Some (Some b) -> hget h p = Ok b.
Proof. unfold hget; now intros ->. Qed.

Lemma is_alloc_iff t : is_alloc t = true <-> defined (alloc_shape t) /\ exists p, raw t = Some p.
Proof.
  unfold is_alloc. rewrite andb_true_iff, is_fully_defined_iff.
  destruct (raw t); split; intros [H1 H2]; split; eauto; try discriminate.
  destruct H2; discriminate.
Qed.

Lemma is_alloc_none a b : is_alloc (mkT None a b) = false.
Proof. unfold is_alloc; cbn [raw]. apply andb_false_r. Qed.

Lemma wf_is_alloc h t : wf h t -> (is_alloc t = true <-> raw t <> None).
Proof.
  intros W. rewrite is_alloc_iff. split.
  - intros [_ [p ->]]; discriminate.
  - destruct (raw t) as [p|] eqn:E; [|congruence]. intros _.
    destruct (W p E) as [b [_ [_ H]]]. eauto.
Qed.

Lemma wf_not_alloc h t : wf h t -> is_alloc t = false -> raw t = None.
Proof.
  intros W E. destruct (raw t) eqn:R; auto.
  assert (is_alloc t = true) by (apply (wf_is_alloc h t W); congruence). congruence.
Qed.

(** releasing [t]'s buffer and installing a fresh buffer of the right size *)
Lemma local_realloc h t q b' s al :
  wf h t -> defined s -> length b' = n_elems s -> q = length h ->
  forall h1, h1 = h ++ [Some b'] ->
  exists h', hfree h1 (raw t) = Ok h' /\ local h t h' (mkT (Some q) s al) /\ nth_error h' q = Some (Some b').
Proof.
  intros W Hs Hb -> h1 ->.
  destruct (raw t) as [p|] eqn:R; cbn [hfree].
  - destruct (W p R) as [b [Hp [Hl Hd]]].
    assert (Hlt : p < length h) by now apply nth_error_lt in Hp.
    rewrite (hget_ok _ p b) by (rewrite nth_error_app1; auto). cbn [bind].
    eexists; split; [reflexivity|].
    assert (Hq : nth_error (set_nth p None (h ++ [Some b'])) (length h) = Some (Some b')).
    { rewrite nth_error_set_nth_neq by lia. rewrite nth_error_app2, Nat.sub_diag by lia. reflexivity. }
    split; auto. split; [|split; [|split]].
    + rewrite length_set_nth, app_length; lia.
    + intros p' Hp' Hne. rewrite R in Hne. rewrite nth_error_set_nth_neq by congruence.
      now rewrite nth_error_app1.
    + intros p' b2 Hp' [Hge|Hr]; cbn [raw].
      * assert (p' < length (h ++ [Some b'])) by (apply nth_error_lt in Hp'; now rewrite length_set_nth in Hp').
        rewrite app_length in *; simpl in *. f_equal; lia.
      * rewrite R in Hr. injection Hr as <-. rewrite nth_error_set_nth_eq in Hp' by (rewrite app_length; simpl; lia). discriminate.
    + cbn [raw alloc_shape]. intros p' Ep. injection Ep as <-. split; [left; lia|]. exists b'. auto.
  - eexists; split; [reflexivity|].
    assert (Hq : nth_error (h ++ [Some b']) (length h) = Some (Some b')).
    { rewrite nth_error_app2, Nat.sub_diag by lia. reflexivity. }
    split; auto. split; [|split; [|split]].
    + rewrite app_length; lia.
    + intros p' Hp' Hne. now rewrite nth_error_app1.
    + intros p' b2 Hp' [Hge|Hr]; cbn [raw]; [|congruence].
      apply nth_error_lt in Hp'. rewrite app_length in Hp'; simpl in Hp'. f_equal; lia.
    + cbn [raw alloc_shape]. intros p' Ep. injection Ep as <-. split; [left; lia|]. exists b'. auto.
Qed.

Lemma local_same h t t' :
  wf h t -> raw t' = raw t -> (raw t <> None -> alloc_shape t' = alloc_shape t) -> local h t h t'.
Proof.
  intros W R A. split; auto. split; auto. split.
  - intros p b Hp [Hge|Hr]; [apply nth_error_lt in Hp; lia|congruence].
  - rewrite R. intros p Hp. destruct (W p Hp) as [b [H1 [H2 H3]]].
    split; auto. exists b. rewrite A by congruence. auto.
Qed.

Lemma local_free h t al1 al2 :
  wf h t -> exists h', hfree h (raw t) = Ok h' /\ local h t h' (mkT None al1 al2).
Proof.
  intros W. destruct (raw t) as [p|] eqn:R; cbn [hfree].
  - destruct (W p R) as [b [Hp [Hl Hd]]]. rewrite (hget_ok _ p b Hp). cbn [bind].
    assert (Hlt : p < length h) by now apply nth_error_lt in Hp.
    eexists; split; [reflexivity|]. split; [|split; [|split]].
    + now rewrite length_set_nth.
    + intros p' Hp' Hne. rewrite nth_error_set_nth_neq; auto. congruence.
    + intros p' b2 Hp' [Hge|Hr]; exfalso.
      * apply nth_error_lt in Hp'. rewrite length_set_nth in Hp'. lia.
      * rewrite R in Hr. injection Hr as <-. rewrite nth_error_set_nth_eq in Hp'; auto. discriminate.
    + discriminate.
  - eexists; split; [reflexivity|]. split; auto. split; auto. split; [|discriminate].
    intros p' b Hp [Hge|Hr]; [apply nth_error_lt in Hp; lia|congruence].
Qed.

Lemma hput_app_fresh (h : heap T) b b' : hput (h ++ [Some b]) (length h) b' = h ++ [Some b'].
Proof. unfold hput. induction h; simpl; auto. now f_equal. Qed.

(** ---- per-operation lemmas ---- *)

Lemma t_new_ok h s : local h blank (fst (t_new junk h s)) (snd (t_new junk h s)) /\
  (is_fully_defined s = true -> exists p, raw (snd (t_new junk h s)) = Some p /\
     nth_error (fst (t_new junk h s)) p = Some (Some (repeat junk (n_elems s)))).
Proof.
  assert (W : wf h blank) by (intros p; discriminate).
  unfold t_new. destruct (is_fully_defined s) eqn:F; simpl.
  - apply is_fully_defined_iff in F.
    destruct (local_realloc h blank (length h) (repeat junk (n_elems s)) s s W F (repeat_length _ _) eq_refl _ eq_refl)
      as [h' [E [L N]]]. cbn in E. injection E as <-. split; auto. intros _. eauto.
  - split; [|discriminate]. apply local_same; auto.
Qed.

Lemma t_new_scalar_ok h v :
  exists h' t, t_new_scalar junk h v = Ok (h', t) /\ local h blank h' t /\
    exists p, raw t = Some p /\ nth_error h' p = Some (Some [v]).
Proof.
  assert (W : wf h blank) by (intros p; discriminate).
  unfold t_new_scalar. cbn [t_new is_fully_defined fold_left andb Nat.ltb Nat.leb halloc n_elems].
  cbn [raw]. rewrite (hget_ok _ _ [junk]) by (rewrite nth_error_app2, Nat.sub_diag by lia; reflexivity).
  cbn [bind]. change (wr [junk] 0 v) with (@Ok (list T) [v]). cbn [bind].
  change (1 * 1) with 1. cbn [repeat]. rewrite hput_app_fresh.
  assert (F : defined [1]) by (split; [discriminate|repeat constructor]).
  destruct (local_realloc h blank (length h) [v] [1] [1] W F eq_refl eq_refl _ eq_refl)
      as [h' [E [L N]]]. cbn in E. injection E as <-.
  eexists _, _; split; [reflexivity|]. split; [exact L|]. exists (length h). auto.
Qed.

Lemma t_allocate_shape_ok h t s :
  wf h t ->
  exists h' t' ok, t_allocate_shape zero junk h t s = Ok (h', t', ok) /\ local h t h' t' /\
    allowed_shape t' = allowed_shape t /\
    (ok = false -> h' = h /\ t' = t) /\
    (ok = true -> defined s /\ alloc_shape t' = s /\ is_compatible_with s (allowed_shape t) = Ok true /\
       is_alloc t' = true).
Proof.
  intros W. unfold t_allocate_shape.
  destruct (compat_total s (alloc_shape t)) as [c1 E1]. rewrite E1. cbn [bind].
  destruct (is_alloc t && c1) eqn:C1.
  { exists h, t, false. split; auto. split; [now apply local_same|]. split; auto. split; auto. discriminate. }
  destruct (compat_total s (allowed_shape t)) as [c2 E2]. rewrite E2. cbn [bind].
  destruct (c2 && is_fully_defined s) eqn:C2.
  2:{ exists h, t, false. split; auto. split; [now apply local_same|]. split; auto. split; auto. discriminate. }
  apply andb_true_iff in C2. destruct C2 as [-> F]. pose proof F as F'. apply is_fully_defined_iff in F.
  destruct (is_alloc t) eqn:A.
  - apply is_alloc_iff in A. destruct A as [Ad [p R]]. rewrite R.
    destruct (W p R) as [b [Hp [Hl Hd]]]. cbn [halloc].
    assert (Hlt : p < length h) by now apply nth_error_lt in Hp.
    rewrite (hget_ok _ (length h) (repeat junk (n_elems s))) by (apply (halloc_fresh h (n_elems s))).
    cbn [bind]. rewrite (hget_ok _ p b) by (rewrite nth_error_app1; auto). cbn [bind].
    destruct (fit_toshape_ok zero (repeat junk (n_elems s)) s b (alloc_shape t) F Hd) as [d' [Ef [Ld _]]].
    { rewrite repeat_length; lia. } { lia. }
    rewrite Ef. cbn [bind]. rewrite hput_app_fresh. rewrite repeat_length in Ld.
    destruct (local_realloc h t (length h) d' s (allowed_shape t) W F Ld eq_refl _ eq_refl) as [h' [E [L N]]].
    rewrite R in E. rewrite E. cbn [bind].
    exists h', (mkT (Some (length h)) s (allowed_shape t)), true. split; auto. split; auto. split; auto.
    split; [discriminate|]. intros _. repeat split; try apply F; auto.
    unfold is_alloc; cbn [alloc_shape raw]. now rewrite F'.
  - pose proof (wf_not_alloc h t W A) as R. cbn [halloc].
    destruct (local_realloc h t (length h) (repeat junk (n_elems s)) s (allowed_shape t) W F (repeat_length _ _) eq_refl _ eq_refl)
      as [h' [E [L N]]]. rewrite R in E. cbn in E. injection E as <-.
    eexists _, _, true. split; [reflexivity|]. split; auto. split; auto. split; [discriminate|].
    intros _. repeat split; try apply F; auto. unfold is_alloc; cbn [alloc_shape raw]. now rewrite F'.
Qed.

Lemma t_allocate_ok h t :
  wf h t ->
  exists h' t' ok, t_allocate zero junk h t = Ok (h', t', ok) /\ local h t h' t' /\
    allowed_shape t' = allowed_shape t /\ (ok = false -> h' = h /\ t' = t) /\
    (ok = true -> is_alloc t' = true /\ is_compatible_with (alloc_shape t') (allowed_shape t) = Ok true).
Proof.
  intros W. unfold t_allocate. destruct (is_alloc t) eqn:A.
  - exists h, t, false. split; auto. split; [now apply local_same|]. repeat split; auto; discriminate.
  - destruct (is_fully_defined (alloc_shape t));
    match goal with |- context [t_allocate_shape _ _ _ _ ?s] =>
      destruct (t_allocate_shape_ok h t s W) as [h' [t' [ok [E [L [Al [Hf Ht]]]]]]] end;
    exists h', t', ok; split; auto; split; auto; split; auto; split; auto;
    intros Eok; destruct (Ht Eok) as [_ [<- [? ?]]]; auto.
Qed.

Lemma t_deallocate_ok h t :
  wf h t -> exists h' t' ok, t_deallocate h t = Ok (h', t', ok) /\ local h t h' t' /\
    allowed_shape t' = allowed_shape t /\ raw t' = None.
Proof.
  intros W. unfold t_deallocate. destruct (is_alloc t) eqn:A.
  - destruct (local_free h t [] (allowed_shape t) W) as [h' [E L]]. rewrite E. cbn [bind].
    eexists _, _, true. split; [reflexivity|]. auto.
  - exists h, t, false. split; auto. split; [now apply local_same|]. split; auto. now apply (wf_not_alloc h).
Qed.

Lemma merge_defined a b : length a = length b -> defined b -> defined (merge_dims a b).
Proof.
  intros Hl [Hne Hb]. split.
  - destruct a, b; simpl in *; congruence.
  - clear Hne. revert b Hl Hb. induction a as [|x a IH]; intros [|y b] Hl Hb; simpl in *; try discriminate; constructor.
    + inversion Hb; subst. destruct (Nat.eqb_spec x y), (Nat.eqb_spec x 0), (Nat.eqb_spec y 0); simpl; lia.
    + inversion Hb; subst; apply IH; auto.
Qed.

Lemma merge_with_eq a b : length a = length b -> merge_with a b = Ok (merge_dims a b).
Proof.
  intros E. unfold merge_with. destruct a as [|x a], b as [|y b]; try discriminate; auto.
  rewrite E, Nat.eqb_refl; reflexivity.
Qed.

Lemma local_allowed h t al : wf h t -> local h t h (mkT (raw t) (alloc_shape t) al).
Proof. intros W. apply local_same; auto. Qed.

Lemma wf_allowed h t al : wf h t -> wf h (mkT (raw t) (alloc_shape t) al).
Proof. intros W p Hp. exact (W p Hp). Qed.

Lemma is_alloc_allowed t al : is_alloc (mkT (raw t) (alloc_shape t) al) = is_alloc t.
Proof. reflexivity. Qed.

Definition ss_allowed (t : tensor) (s : shape) (c : bool) : shape :=
  if negb c || negb (is_alloc t) then s else allowed_shape t.

Lemma t_set_shape_ok h t s :
  wf h t ->
  exists c h' t', is_compatible_with (allowed_shape t) s = Ok c /\
    t_set_shape zero junk h t s = Ok (h', t') /\ local h t h' t' /\
    allowed_shape t' = ss_allowed t s c.
Proof.
  intros W. unfold t_set_shape.
  destruct (compat_total (allowed_shape t) s) as [c E]. rewrite E. cbn [bind]. exists c.
  set (t1 := if negb c || negb (is_alloc t) then mkT (raw t) (alloc_shape t) s else t).
  assert (T1 : raw t1 = raw t /\ alloc_shape t1 = alloc_shape t /\ allowed_shape t1 = ss_allowed t s c).
  { unfold t1, ss_allowed. destruct (negb c || negb (is_alloc t)); auto. }
  destruct T1 as [R1 [A1 B1]].
  assert (W1 : wf h t1). { intros p Hp. rewrite A1. apply W. congruence. }
  assert (L1 : forall h' t', local h t1 h' t' -> local h t h' t').
  { unfold local. rewrite R1. auto. }
  destruct (compat_total s (alloc_shape t1)) as [c2 E2]. rewrite E2. cbn [bind].
  destruct (is_alloc t1 && negb c2) eqn:C.
  2:{ exists h, t1. split; auto. split; auto. split; auto. apply local_same; auto. }
  apply andb_true_iff in C. destruct C as [A C].
  assert (Es : exists s', (if is_fully_defined s then Ok s
           else
             m <- merge_with (with_rank s (rank (alloc_shape t1))) (alloc_shape t1) ;;
             Ok (with_rank m (rank (allowed_shape t1)))) = Ok s').
  { destruct (is_fully_defined s); eauto.
    rewrite merge_with_eq by apply with_rank_length. cbn [bind]. eauto. }
  destruct Es as [s' ->]. cbn [bind].
  destruct (t_allocate_shape_ok h t1 s' W1) as [h' [t' [ok [E3 [L [Al _]]]]]].
  rewrite E3. cbn [bind]. exists h', t'. split; auto. split; auto. split; auto. congruence.
Qed.

Lemma t_copy_from_ok h t other s :
  wf h t -> wf h other ->
  exists h' t' ok, t_copy_from zero junk h t other s = Ok (h', t', ok) /\ local h t h' t' /\
    (ok = false -> h' = h /\ t' = t) /\
    (ok = true -> defined s /\ is_alloc other = true /\ alloc_shape t' = s /\ is_alloc t' = true /\
       is_compatible_with (allowed_shape t') s = Ok true).
Proof.
  intros W Wo. unfold t_copy_from.
  destruct (is_alloc other && is_fully_defined s) eqn:C.
  2:{ exists h, t, false. split; auto. split; [now apply local_same|]. split; auto; discriminate. }
  apply andb_true_iff in C. destruct C as [Ao F]. pose proof F as F'. apply is_fully_defined_iff in F.
  destruct (compat_total (allowed_shape t) s) as [c E]. rewrite E. cbn [bind halloc].
  rewrite (hget_ok _ (length h) (repeat junk (n_elems s))) by (apply (halloc_fresh h (n_elems s))).
  cbn [bind].
  pose proof Ao as Ao'. apply is_alloc_iff in Ao'. destruct Ao' as [Ado [po Ro]]. rewrite Ro.
  destruct (Wo po Ro) as [b [Hp [Hl Hd]]].
  assert (Hlt : po < length h) by now apply nth_error_lt in Hp.
  rewrite (hget_ok _ po b) by (rewrite nth_error_app1; auto). cbn [bind].
  unfold get_shape. rewrite Ao.
  destruct (fit_toshape_ok zero (repeat junk (n_elems s)) s b (alloc_shape other) F Hd) as [d' [Ef [Ld _]]].
  { rewrite repeat_length; lia. } { lia. }
  rewrite Ef. cbn [bind]. rewrite hput_app_fresh. rewrite repeat_length in Ld.
  destruct (local_realloc h t (length h) d' s (if c then allowed_shape t else s) W F Ld eq_refl _ eq_refl) as [h' [E' [L N]]].
  assert (E2 : (if is_alloc t then hfree (h ++ [Some d']) (raw t) else @Ok (heap T) (h ++ [Some d'])) = Ok h').
  { destruct (is_alloc t) eqn:A; auto. pose proof (wf_not_alloc h t W A) as R. rewrite R in E'. exact E'. }
  rewrite E2. cbn [bind]. eexists _, _, true. split; [reflexivity|]. split; auto. split; [discriminate|].
  intros _. split; auto. split; auto. cbn [alloc_shape]. split; auto. split.
  - unfold is_alloc; cbn [alloc_shape raw]. now rewrite F'.
  - cbn [allowed_shape]. destruct c; auto. apply compat_refl.
Qed.

Lemma t_copy_helper_ok h t other so :
  wf h t -> wf h other -> (forall p, raw t = Some p -> raw other <> Some p) ->
  exists h' t', t_copy_helper junk h t other so = Ok (h', t') /\ local h t h' t' /\
    alloc_shape t' = alloc_shape other /\ allowed_shape t' = allowed_shape other /\
    (is_alloc other = true -> so = false -> forall po b, raw other = Some po -> nth_error h po = Some (Some b) ->
       exists q, raw t' = Some q /\ nth_error h' q = Some (Some b)) /\
    (is_alloc other = false -> raw t' = None).
Proof.
  intros W Wo Hne. unfold t_copy_helper.
  destruct (local_free h t (alloc_shape other) (allowed_shape other) W) as [h1 [E1 L1]].
  rewrite E1. cbn [bind].
  pose proof (local_other _ _ _ _ _ L1 Wo Hne) as Wo1.
  assert (W1 : wf h1 blank) by (intros p; discriminate).
  assert (LC : forall h' t', local h1 blank h' t' -> local h t h' t').
  { intros h' t' [M1 [M2 [M3 M4]]]. destruct L1 as [N1 [N2 [N3 N4]]].
    assert (Len : length h1 = length h).
    { destruct (raw t) as [p|]; cbn [hfree] in E1.
      - destruct (hget h p); try discriminate. cbn [bind] in E1. injection E1 as <-. apply length_set_nth.
      - now injection E1 as <-. }
    split; [lia|]. split; [|split].
    - intros p Hp Hr. rewrite M2 by (try lia; discriminate). auto.
    - intros p b Hp [Hge|Hr].
      + apply (M3 p b); auto. left; lia.
      + destruct (Nat.lt_ge_cases p (length h1)) as [Hlt|Hge].
        * rewrite M2 in Hp by (auto; discriminate).
          specialize (N3 p b Hp (or_intror Hr)). discriminate.
        * apply (M3 p b); auto.
    - intros p Hp. destruct (M4 p Hp) as [[Hge|Hr] Hb]; [|discriminate]. split; auto. left; lia. }
  destruct (is_alloc other) eqn:A.
  - apply is_alloc_iff in A. destruct A as [Ad [po Ro]]. cbn [halloc].
    destruct so.
    + destruct (local_realloc h1 blank (length h1) (repeat junk (n_elems (alloc_shape other))) (alloc_shape other) (allowed_shape other) W1 Ad (repeat_length _ _) eq_refl _ eq_refl)
        as [h' [E [L N]]]. cbn in E. injection E as <-.
      eexists _, _. split; [reflexivity|]. split; [auto|]. repeat split; auto; discriminate.
    + rewrite Ro. destruct (Wo1 po Ro) as [b [Hp [Hl Hd]]].
      assert (Hlt : po < length h1) by now apply nth_error_lt in Hp.
      rewrite (hget_ok _ po b) by (rewrite nth_error_app1; auto). cbn [bind].
      rewrite (hget_ok _ (length h1) (repeat junk (n_elems (alloc_shape other)))) by (apply (halloc_fresh h1 (n_elems (alloc_shape other)))).
      cbn [bind].
      destruct (memcpy_ok (repeat junk (n_elems (alloc_shape other))) b 0 0 (n_elems (alloc_shape other))) as [d' [Em [Ld Hd']]].
      { rewrite repeat_length; lia. } { lia. }
      rewrite Em. cbn [bind]. rewrite hput_app_fresh. rewrite repeat_length in Ld.
      assert (Edb : d' = b).
      { apply nth_error_ext_lt; [lia|]. intros i Hi. rewrite Hd'.
        destruct (Nat.leb_spec 0 i); [|lia]. destruct (Nat.ltb_spec i (0 + n_elems (alloc_shape other))); [|lia].
        cbn [andb]. f_equal; lia. }
      subst d'.
      destruct (local_realloc h1 blank (length h1) b (alloc_shape other) (allowed_shape other) W1 Ad Hl eq_refl _ eq_refl)
        as [h' [E [L N]]]. cbn in E. injection E as <-.
      eexists _, _. split; [reflexivity|]. split; [auto|]. split; auto. split; auto. split; [|discriminate].
      intros _ _ po' b2 Hpo Hb2. injection Hpo as <-. exists (length h1). split; auto.
      destruct L1 as [N1 [N2 _]]. rewrite N2 in Hp.
      * congruence.
      * now apply nth_error_lt in Hb2.
      * intros Hr. exact (Hne po Hr Ro).
  - exists h1, (mkT None (alloc_shape other) (allowed_shape other)). split; auto. split; auto.
    repeat split; auto; discriminate.
Qed.

Lemma t_from_proto_ok h t pr :
  wf h t -> length (p_alloc pr) = length (p_allow pr) ->
  length (p_data pr) <= n_elems (p_alloc pr) ->
  exists h' t' ok, t_from_proto false zero junk h t pr = Ok (h', t', ok) /\ local h t h' t' /\
    (ok = true -> allowed_shape t' = p_allow pr /\ alloc_shape t' = p_alloc pr /\ defined (p_alloc pr) /\
       is_compatible_with (p_alloc pr) (p_allow pr) = Ok true /\
       exists q b, raw t' = Some q /\ nth_error h' q = Some (Some b) /\
         (forall j, j < length (p_data pr) -> nth_error b j = nth_error (p_data pr) j)) /\
    (ok = false -> h' = h /\ raw t' = raw t /\ alloc_shape t' = alloc_shape t /\ allowed_shape t' = p_allow pr /\
       (is_compatible_with (p_alloc pr) (p_allow pr) = Ok false \/ ~ defined (p_alloc pr))).
Proof.
  intros W Hr Hd. unfold t_from_proto. rewrite Hr, Nat.eqb_refl. cbn [assert_ bind allowed_shape raw alloc_shape].
  destruct (compat_total (p_alloc pr) (p_allow pr)) as [c E]. rewrite E. cbn [bind].
  destruct (negb c || negb (is_fully_defined (p_alloc pr))) eqn:C.
  { eexists _, _, false. split; [reflexivity|]. split; [now apply local_allowed|]. split; [discriminate|].
    intros _. repeat split; auto. apply orb_true_iff in C. destruct C as [C|C]; apply negb_true_iff in C.
    - left; congruence.
    - right. intros D. apply is_fully_defined_iff in D. congruence. }
  apply orb_false_iff in C. destruct C as [C F]. apply negb_false_iff in C, F. subst c.
  pose proof F as F'. apply is_fully_defined_iff in F.
  set (t1 := mkT (raw t) (alloc_shape t) (p_allow pr)).
  assert (W1 : wf h t1) by (intros p Hp; apply (W p Hp)).
  assert (Eu : exists h1, t_deallocate h t1 = Ok (h1, mkT None (if is_alloc t1 then [] else alloc_shape t) (p_allow pr), is_alloc t1)
     /\ hfree h (raw t) = Ok h1).
  { unfold t_deallocate. destruct (is_alloc t1) eqn:A.
    - destruct (local_free h t [] [] W) as [h1 [E1 _]]. exists h1. cbn [raw t1]. rewrite E1. split; auto.
    - exists h. pose proof (wf_not_alloc h t1 W1 A) as R. cbn in R. unfold t1. rewrite R. split; auto. }
  destruct Eu as [h1 [Ed Ef]]. rewrite Ed. cbn [bind raw allowed_shape].
  unfold t_allocate. rewrite is_alloc_none. cbn [alloc_shape raw]. rewrite F'.
  unfold t_allocate_shape. rewrite is_alloc_none. cbn [alloc_shape raw allowed_shape]. rewrite compat_refl. cbn [bind andb].
  rewrite E, F'. cbn [bind andb halloc assert_ raw].
  rewrite (hget_ok _ (length h1) (repeat junk (n_elems (p_alloc pr)))) by (apply (halloc_fresh h1 (n_elems (p_alloc pr)))).
  cbn [bind].
  destruct (memcpy_ok (repeat junk (n_elems (p_alloc pr))) (p_data pr) 0 0 (length (p_data pr))) as [d' [Em [Ld Hd']]].
  { rewrite repeat_length; lia. } { lia. }
  rewrite Em. cbn [bind]. rewrite hput_app_fresh. rewrite repeat_length in Ld.
  eexists _, _, true. split; [reflexivity|].
  assert (Len : length h1 = length h).
  { destruct (raw t) as [p|]; cbn [hfree] in Ef.
    - destruct (hget h p); try discriminate. cbn [bind] in Ef. injection Ef as <-. apply length_set_nth.
    - now injection Ef as <-. }
  assert (Hq : nth_error (h1 ++ [Some d']) (length h1) = Some (Some d')).
  { rewrite nth_error_app2, Nat.sub_diag by lia. reflexivity. }
  split.
  - destruct (local_free h t [] [] W) as [h1' [E1 [N1 [N2 [N3 _]]]]]. rewrite Ef in E1. injection E1 as <-.
    split; [rewrite app_length; lia|]. split; [|split]; cbn [raw alloc_shape].
    + intros p Hp Hne. rewrite nth_error_app1 by lia. auto.
    + intros p b Hp [Hge|Hrt].
      * apply nth_error_lt in Hp. rewrite app_length in Hp; simpl in Hp. f_equal; lia.
      * destruct (W p Hrt) as [b0 [Hb0 _]]. apply nth_error_lt in Hb0.
        rewrite nth_error_app1 in Hp by lia. specialize (N3 p b Hp (or_intror Hrt)). discriminate.
    + intros p Hp. injection Hp as <-. split; [left; lia|]. exists d'. auto.
  - split; [|discriminate]. intros _. cbn [allowed_shape alloc_shape raw]. repeat split; try apply F; auto.
    exists (length h1), d'. repeat split; auto. intros j Hj. rewrite Hd'.
    destruct (Nat.leb_spec 0 j); [|lia]. destruct (Nat.ltb_spec j (0 + length (p_data pr))); [|lia].
    cbn [andb]. f_equal; lia.
Qed.

(** ---- the step preserves the invariant, and cannot fail for a correct client ---- *)

Lemma lookup_ok (w : world T) i t : alive w i t -> lookup w i = Ok t.
Proof. unfold alive, lookup. now intros ->. Qed.

Lemma lookup_inv (w : world T) i t : lookup w i = Ok t -> alive w i t.
Proof. unfold alive, lookup. destruct (nth_error (w_ts w) i) as [[x|]|]; congruence. Qed.

Lemma Inv_raw_neq w i j ti tj p : Inv w -> alive w i ti -> alive w j tj -> i <> j -> raw ti = Some p -> raw tj <> Some p.
Proof. intros [_ [I2 _]] Hi Hj Hne Hp Hq. apply Hne. apply (I2 i j ti tj p); split; auto. Qed.

Lemma step_store w i t p b k v :
  Inv w -> alive w i t -> raw t = Some p -> live w p b -> k < length b ->
  Inv (mkW (hput (w_heap w) p (set_nth k v b)) (w_ts w)).
Proof.
  intros [I1 [I2 I3]] Ha Hr Hb Hk. unfold live in Hb.
  assert (Hlt : p < length (w_heap w)) by now apply nth_error_lt in Hb.
  assert (Hn : forall q, nth_error (hput (w_heap w) p (set_nth k v b)) q =
     if p =? q then Some (Some (set_nth k v b)) else nth_error (w_heap w) q).
  { intros q. unfold hput. rewrite nth_error_set_nth. destruct (Nat.ltb_spec p (length (w_heap w))); [|lia].
    now rewrite andb_true_r. }
  split; [|split]; unfold alive, owns, live; cbn [w_heap w_ts].
  - intros j tj Hj q Hq. destruct (I1 j tj Hj q Hq) as [b2 [H1 [H2 H3]]]. rewrite Hn.
    destruct (Nat.eqb_spec p q) as [<-|].
    + rewrite Hb in H1. injection H1 as <-. exists (set_nth k v b). rewrite length_set_nth. auto.
    + eauto.
  - exact I2.
  - intros q b2 Hq. rewrite Hn in Hq. destruct (Nat.eqb_spec p q) as [<-|].
    + apply (I3 p b); auto.
    + apply (I3 q b2); auto.
Qed.

Lemma step_ok w o : Inv w -> client_ok w o -> exists w', step zero junk w o = Ok w'.
Proof.
  intros HI HC. pose proof HI as [I1 [I2 I3]]. destruct o; cbn [client_ok step] in *.
  - destruct (t_new junk (w_heap w) s); eauto.
  - destruct (t_new_scalar_ok (w_heap w) v) as [h' [t [E _]]]. rewrite E. cbn. eauto.
  - destruct HC as [t Ht]. rewrite (lookup_ok w i t Ht). cbn [bind].
    destruct (t_copy_helper_ok (w_heap w) blank t shapeonly) as [h' [t' [E _]]].
    { intros p; discriminate. } { apply (I1 i t Ht). } { discriminate. }
    rewrite E. cbn. eauto.
  - destruct HC as [t Ht]. rewrite (lookup_ok w i t Ht). cbn. eauto.
  - destruct HC as [[ti Hi] [tj Hj]]. rewrite (lookup_ok w i ti Hi), (lookup_ok w j tj Hj). cbn [bind].
    destruct (Nat.eqb_spec i j); eauto.
    destruct (t_copy_helper_ok (w_heap w) ti tj false) as [h' [t' [E _]]].
    { apply (I1 i ti Hi). } { apply (I1 j tj Hj). }
    { intros p Hp. eapply (Inv_raw_neq w i j); eauto. }
    rewrite E. cbn. eauto.
  - destruct HC as [[ti Hi] [tj Hj]]. rewrite (lookup_ok w i ti Hi), (lookup_ok w j tj Hj). cbn [bind].
    destruct (Nat.eqb_spec i j); eauto. unfold t_move_helper.
    destruct (local_free (w_heap w) ti [] [] (I1 i ti Hi)) as [h' [E _]]. rewrite E. cbn. eauto.
  - destruct HC as [t Ht]. rewrite (lookup_ok w i t Ht). cbn [bind].
    destruct (t_set_shape_ok (w_heap w) t s (I1 i t Ht)) as [c [h' [t' [_ [E _]]]]]. rewrite E. cbn. eauto.
  - destruct HC as [t Ht]. rewrite (lookup_ok w i t Ht). cbn [bind].
    destruct (t_allocate_ok (w_heap w) t (I1 i t Ht)) as [h' [t' [ok [E _]]]]. rewrite E. cbn. eauto.
  - destruct HC as [t Ht]. rewrite (lookup_ok w i t Ht). cbn [bind].
    destruct (t_allocate_shape_ok (w_heap w) t s (I1 i t Ht)) as [h' [t' [ok [E _]]]]. rewrite E. cbn. eauto.
  - destruct HC as [t Ht]. rewrite (lookup_ok w i t Ht). cbn [bind].
    destruct (t_deallocate_ok (w_heap w) t (I1 i t Ht)) as [h' [t' [ok [E _]]]]. rewrite E. cbn. eauto.
  - destruct HC as [[ti Hi] [tj Hj]]. rewrite (lookup_ok w i ti Hi), (lookup_ok w j tj Hj). cbn [bind].
    destruct (t_copy_from_ok (w_heap w) ti tj s (I1 i ti Hi) (I1 j tj Hj)) as [h' [t' [ok [E _]]]]. rewrite E. cbn. eauto.
  - destruct HC as [t [Ht [Hr Hk]]]. rewrite (lookup_ok w i t Ht). cbn [bind].
    destruct (raw t) as [p|] eqn:R; [|congruence].
    destruct (I1 i t Ht p R) as [b [Hb [Hl _]]]. rewrite (hget_ok _ p b Hb). cbn [bind].
    rewrite wr_ok by lia. cbn. eauto.
  - destruct HC as [[t Ht] [Hr Hd]]. rewrite (lookup_ok w i t Ht). cbn [bind].
    destruct (t_from_proto_ok (w_heap w) t pr (I1 i t Ht) Hr Hd) as [h' [t' [ok [E _]]]]. rewrite E. cbn. eauto.
  - destruct HC as [t Ht]. rewrite (lookup_ok w i t Ht). cbn [bind]. unfold t_destroy.
    destruct (local_free (w_heap w) t [] [] (I1 i t Ht)) as [h' [E _]]. rewrite E. cbn. eauto.
Qed.

Lemma t_from_proto_inv h t pr h' t' ok :
  wf h t -> t_from_proto false zero junk h t pr = Ok (h', t', ok) -> local h t h' t'.
Proof.
  intros W E.
  destruct (Nat.eq_dec (length (p_alloc pr)) (length (p_allow pr))) as [Hr|Hr].
  2:{ unfold t_from_proto in E. apply Nat.eqb_neq in Hr. rewrite Hr in E. discriminate. }
  destruct (Nat.le_gt_cases (length (p_data pr)) (n_elems (p_alloc pr))) as [Hd|Hd].
  { destruct (t_from_proto_ok h t pr W Hr Hd) as [h2 [t2 [ok2 [E2 [L _]]]]]. congruence. }
  (* too much data: either rejected by the shape check, or UB *)
  unfold t_from_proto in E. rewrite Hr, Nat.eqb_refl in E. cbn [assert_ bind allowed_shape raw alloc_shape] in E.
  destruct (compat_total (p_alloc pr) (p_allow pr)) as [c Ec]. rewrite Ec in E. cbn [bind] in E.
  destruct (negb c || negb (is_fully_defined (p_alloc pr))) eqn:C.
  { injection E as <- <- <-. now apply local_allowed. }
  exfalso. apply orb_false_iff in C. destruct C as [C F]. apply negb_false_iff in C, F. subst c.
  set (t1 := mkT (raw t) (alloc_shape t) (p_allow pr)) in *.
  assert (W1 : wf h t1) by (intros p Hp; apply (W p Hp)).
  destruct (t_deallocate_ok h t1 W1) as [h1 [t1' [okd [Ed [_ [Al R1]]]]]]. rewrite Ed in E.
  cbn [bind] in E. rewrite Al, R1 in E. cbn [t1 allowed_shape] in E.
  unfold t_allocate in E. rewrite is_alloc_none in E. cbn [alloc_shape raw] in E. rewrite F in E.
  unfold t_allocate_shape in E. rewrite is_alloc_none in E. cbn [alloc_shape raw allowed_shape] in E. rewrite compat_refl in E. cbn [bind andb] in E.
  rewrite Ec, F in E. cbn [bind andb halloc assert_ raw] in E.
  rewrite (hget_ok _ (length h1) (repeat junk (n_elems (p_alloc pr)))) in E by (apply (halloc_fresh h1 (n_elems (p_alloc pr)))).
  cbn [bind] in E.
  assert (memcpy (repeat junk (n_elems (p_alloc pr))) 0 (p_data pr) 0 (length (p_data pr)) = UB) as U.
  { unfold memcpy. set (n := n_elems (p_alloc pr)) in *.
    destruct (memcpy_ok (repeat junk n) (p_data pr) 0 0 n) as [d' [Em [Ld _]]].
    { rewrite repeat_length; lia. } { lia. }
    rewrite repeat_length in Ld.
    apply (for_exit _ _ n _ d' UB); auto; [|discriminate].
    destruct (rd_lt (p_data pr) (0 + n)) as [x [_ Ex]]; [lia|]. rewrite Ex. cbn [bind].
    unfold wr. destruct (Nat.ltb_spec (0 + n) (length d')); auto; lia. }
  rewrite U in E. discriminate.
Qed.

Lemma step_inv w o w' : Inv w -> step zero junk w o = Ok w' -> Inv w'.
Proof.
  intros HI E. pose proof HI as [I1 [I2 I3]]. destruct o; cbn [step] in E.
  - destruct (t_new_ok (w_heap w) s) as [L _]. destruct (t_new junk (w_heap w) s) as [h' t].
    injection E as <-. now apply Inv_add.
  - destruct (t_new_scalar_ok (w_heap w) v) as [h' [t [E' [L _]]]]. rewrite E' in E. cbn in E.
    injection E as <-. now apply Inv_add.
  - destruct (lookup w i) as [t| | |] eqn:Ht; try discriminate. apply lookup_inv in Ht. cbn [bind] in E.
    destruct (t_copy_helper_ok (w_heap w) blank t shapeonly) as [h' [t' [E' [L _]]]].
    { intros p; discriminate. } { apply (I1 i t Ht). } { discriminate. }
    rewrite E' in E. cbn in E. injection E as <-. now apply Inv_add.
  - destruct (lookup w i) as [t| | |] eqn:Ht; try discriminate. apply lookup_inv in Ht. cbn in E.
    injection E as <-. apply (Inv_transfer_new w i t [] []); auto.
  - destruct (lookup w i) as [ti| | |] eqn:Hi; try discriminate. apply lookup_inv in Hi. cbn [bind] in E.
    destruct (lookup w j) as [tj| | |] eqn:Hj; try discriminate. apply lookup_inv in Hj. cbn [bind] in E.
    destruct (Nat.eqb_spec i j); [congruence|].
    destruct (t_copy_helper_ok (w_heap w) ti tj false) as [h' [t' [E' [L _]]]].
    { apply (I1 i ti Hi). } { apply (I1 j tj Hj). }
    { intros p Hp. eapply (Inv_raw_neq w i j); eauto. }
    rewrite E' in E. cbn in E. injection E as <-. now apply (Inv_update w i ti).
  - destruct (lookup w i) as [ti| | |] eqn:Hi; try discriminate. apply lookup_inv in Hi. cbn [bind] in E.
    destruct (lookup w j) as [tj| | |] eqn:Hj; try discriminate. apply lookup_inv in Hj. cbn [bind] in E.
    destruct (Nat.eqb_spec i j); [congruence|]. unfold t_move_helper in E.
    destruct (local_free (w_heap w) ti [] [] (I1 i ti Hi)) as [h' [E' L]]. rewrite E' in E. cbn in E.
    injection E as <-.
    pose proof (Inv_update w i ti h' _ HI Hi L) as HU.
    assert (Li : i < length (w_ts w)) by (unfold alive in Hi; now apply nth_error_lt in Hi).
    pose proof (Inv_transfer (put w h' i (Some (mkT None [] []))) i j (mkT None [] []) tj [] [] HU) as HT.
    unfold alive, put in HT; cbn [w_ts w_heap] in HT.
    rewrite nth_error_set_nth_eq in HT by auto. rewrite nth_error_set_nth_neq in HT by auto.
    unfold put; cbn [w_heap w_ts].
    assert (Q : forall x y (l : list (option tensor)), set_nth i x (set_nth i y l) = set_nth i x l).
    { clear. intros x y l; revert i; induction l as [|z l IH]; intros [|i]; simpl; auto. now rewrite IH. }
    rewrite Q in HT. apply HT; auto.
  - destruct (lookup w i) as [t| | |] eqn:Ht; try discriminate. apply lookup_inv in Ht. cbn [bind] in E.
    destruct (t_set_shape_ok (w_heap w) t s (I1 i t Ht)) as [c [h' [t' [_ [E' [L _]]]]]]. rewrite E' in E. cbn in E.
    injection E as <-. now apply (Inv_update w i t).
  - destruct (lookup w i) as [t| | |] eqn:Ht; try discriminate. apply lookup_inv in Ht. cbn [bind] in E.
    destruct (t_allocate_ok (w_heap w) t (I1 i t Ht)) as [h' [t' [ok [E' [L _]]]]]. rewrite E' in E. cbn in E.
    injection E as <-. now apply (Inv_update w i t).
  - destruct (lookup w i) as [t| | |] eqn:Ht; try discriminate. apply lookup_inv in Ht. cbn [bind] in E.
    destruct (t_allocate_shape_ok (w_heap w) t s (I1 i t Ht)) as [h' [t' [ok [E' [L _]]]]]. rewrite E' in E. cbn in E.
    injection E as <-. now apply (Inv_update w i t).
  - destruct (lookup w i) as [t| | |] eqn:Ht; try discriminate. apply lookup_inv in Ht. cbn [bind] in E.
    destruct (t_deallocate_ok (w_heap w) t (I1 i t Ht)) as [h' [t' [ok [E' [L _]]]]]. rewrite E' in E. cbn in E.
    injection E as <-. now apply (Inv_update w i t).
  - destruct (lookup w i) as [ti| | |] eqn:Hi; try discriminate. apply lookup_inv in Hi. cbn [bind] in E.
    destruct (lookup w j) as [tj| | |] eqn:Hj; try discriminate. apply lookup_inv in Hj. cbn [bind] in E.
    destruct (t_copy_from_ok (w_heap w) ti tj s (I1 i ti Hi) (I1 j tj Hj)) as [h' [t' [ok [E' [L _]]]]]. rewrite E' in E. cbn in E.
    injection E as <-. now apply (Inv_update w i ti).
  - destruct (lookup w i) as [t| | |] eqn:Ht; try discriminate. apply lookup_inv in Ht. cbn [bind] in E.
    destruct (raw t) as [p|] eqn:R; [|discriminate].
    destruct (I1 i t Ht p R) as [b [Hb [Hl _]]]. rewrite (hget_ok _ p b Hb) in E. cbn [bind] in E.
    unfold wr in E. destruct (Nat.ltb_spec k (length b)); [|discriminate]. cbn in E. injection E as <-.
    now apply (step_store w i t p b).
  - destruct (lookup w i) as [t| | |] eqn:Ht; try discriminate. apply lookup_inv in Ht. cbn [bind] in E.
    destruct (t_from_proto false zero junk (w_heap w) t pr) as [[[h' t'] ok]| | |] eqn:E'; try discriminate.
    cbn in E. injection E as <-. apply (Inv_update w i t); auto. eapply t_from_proto_inv; eauto.
  - destruct (lookup w i) as [t| | |] eqn:Ht; try discriminate. apply lookup_inv in Ht. cbn [bind] in E.
    unfold t_destroy in E.
    destruct (local_free (w_heap w) t [] [] (I1 i t Ht)) as [h' [E' L]]. rewrite E' in E. cbn in E. injection E as <-.
    now apply (Inv_destroy w i t).
Qed.

Lemma run_inv ops : forall w w', Inv w -> run zero junk w ops = Ok w' -> Inv w'.
Proof.
  induction ops as [|o ops IH]; intros w w' HI E; cbn [run] in E.
  - congruence.
  - destruct (step zero junk w o) as [w1| | |] eqn:E1; try discriminate. cbn [bind] in E.
    apply (IH w1); auto. eapply step_inv; eauto.
Qed.

End WithT.
