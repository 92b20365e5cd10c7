From Verif Require Import Common ShapeModel ShapeSpec ShapeProofs FitModel.

Lemma memcpy_ok {T} (dest src : list T) d s n :
  d + n <= length dest -> s + n <= length src ->
  exists dest', memcpy dest d src s n = Ok dest' /\ length dest' = length dest /\
    forall j, nth_error dest' j =
      if (d <=? j) && (j <? d + n) then nth_error src (s + (j - d)) else nth_error dest j.
Proof.
  intros Hd Hs. unfold memcpy.
  apply (for_inv (fun k buf => length buf = length dest /\
    forall j, nth_error buf j = if (d <=? j) && (j <? d + k) then nth_error src (s + (j - d)) else nth_error dest j)).
  - split; auto. intros j. destruct (Nat.leb_spec d j), (Nat.ltb_spec j (d + 0)); simpl; auto; lia.
  - intros k buf Hk [Hl Hb].
    destruct (rd_lt src (s + k)) as [v [Hv Ev]]; [lia|]. rewrite Ev. cbn [bind].
    rewrite wr_ok by lia. eexists; split; [reflexivity|]. rewrite length_set_nth. split; auto.
    intros j. rewrite nth_error_set_nth, Hb.
    destruct (Nat.eqb_spec (d + k) j) as [<-|Hne].
    + destruct (Nat.ltb_spec (d + k) (length buf)); [|lia]. cbn [andb].
      destruct (Nat.leb_spec d (d + k)); [|lia].
      destruct (Nat.ltb_spec (d + k) (d + S k)); [|lia]. cbn [andb].
      replace (d + k - d) with k by lia. auto.
    + cbn [andb]. destruct (Nat.leb_spec d j), (Nat.ltb_spec j (d + k)), (Nat.ltb_spec j (d + S k)); cbn [andb]; auto; lia.
Qed.

Lemma memset0_ok {T} (zero : T) dest n :
  n <= length dest ->
  exists dest', memset0 zero dest n = Ok dest' /\ length dest' = length dest /\
    forall j, nth_error dest' j = if j <? n then Some zero else nth_error dest j.
Proof.
  intros Hn. unfold memset0.
  apply (for_inv (fun k buf => length buf = length dest /\
    forall j, nth_error buf j = if j <? k then Some zero else nth_error dest j)).
  - split; auto.
  - intros k buf Hk [Hl Hb]. rewrite wr_ok by lia. eexists; split; [reflexivity|].
    rewrite length_set_nth. split; auto. intros j. rewrite nth_error_set_nth, Hb.
    destruct (Nat.eqb_spec k j) as [<-|Hne].
    + destruct (Nat.ltb_spec k (length buf)); [|lia]. destruct (Nat.ltb_spec k (S k)); [|lia]. auto.
    + cbn [andb]. destruct (Nat.ltb_spec j k), (Nat.ltb_spec j (S k)); auto; lia.
Qed.

(** list version of the scan *)
Fixpoint scanL (cs O E : list nat) (J : nat) : bool * nat :=
  match cs, O, E with
  | c :: cs', o :: O', d :: E' => if c <? o then scanL cs' O' E' (J * d) else (false, J * (d - c))
  | _, _, _ => (true, J)
  end.

Lemma fit_scan_L k i cs O E J :
  length cs = i + k -> i + k <= length O -> i + k <= length E ->
  fit_scan k i cs O E J = Ok (scanL (skipn i cs) (skipn i O) (firstn k (skipn i E)) J).
Proof.
  revert i J; induction k as [|k IH]; intros i J H1 H2 H3; cbn [fit_scan].
  - rewrite skipn_all2 by lia. reflexivity.
  - rewrite (rd_ok cs i (nth i cs 0)) by (apply nth_error_nth_some; lia).
    rewrite (rd_ok O i (nth i O 0)) by (apply nth_error_nth_some; lia).
    rewrite (rd_ok E i (nth i E 0)) by (apply nth_error_nth_some; lia).
    cbn [bind].
    rewrite (skipn_cons_nth cs i 0), (skipn_cons_nth O i 0), (skipn_cons_nth E i 0) by lia.
    cbn [firstn scanL].
    destruct (nth i cs 0 <? nth i O 0); auto. rewrite IH by lia. reflexivity.
Qed.

(** [p] is inside [O] in every dimension of [E] *)
Fixpoint inb (E O : list nat) (p : nat) : Prop :=
  match E, O with
  | d :: E', o :: O' => p mod d < o /\ inb E' O' (p / d)
  | _, _ => True
  end.

Fixpoint good (E O : list nat) (p : nat) : Prop :=
  match E, O with
  | d :: E', o :: O' => inb E' O' (p / d) \/ (p mod d = 0 /\ good E' O' (p / d))
  | _, _ => True
  end.

Lemma inb_good E O p : inb E O p -> good E O p.
Proof. destruct E, O; simpl; tauto. Qed.

Lemma div_mod_succ p d : 0 < d ->
  (S p mod d = S (p mod d) /\ S p / d = p / d) \/
  (S p mod d = 0 /\ S p / d = S (p / d) /\ p mod d = d - 1).
Proof.
  intros Hd. pose proof (Nat.mod_upper_bound p d ltac:(lia)) as Hb.
  pose proof (Nat.div_mod p d ltac:(lia)) as Hp.
  destruct (Nat.eq_dec (S (p mod d)) d) as [He|He].
  - right. assert (E : S p = S (p / d) * d + 0) by lia.
    split; [|split; [|lia]].
    + rewrite E, Nat.add_comm, Nat.mod_add by lia. apply Nat.mod_0_l; lia.
    + rewrite E, Nat.add_comm, Nat.div_add by lia. rewrite Nat.div_0_l; lia.
  - left. assert (E : S p = S (p mod d) + (p / d) * d) by lia.
    split.
    + rewrite E, Nat.mod_add by lia. apply Nat.mod_small; lia.
    + rewrite E at 1. rewrite Nat.div_add by lia. rewrite Nat.div_small; lia.
Qed.

Lemma inb_good_succ E : forall O p,
  Forall (fun d => 0 < d) E -> inb E O p -> good E O (S p).
Proof.
  induction E as [|d E IH]; intros [|o O] p HE Hi; cbn [good inb] in *; auto.
  inversion HE; subst. destruct Hi as [Hm Hi].
  destruct (div_mod_succ p d) as [[Em Ed]|[Em [Ed _]]]; auto; rewrite Ed.
  - now left.
  - right; auto.
Qed.

Lemma scanL_inb E : forall O p J,
  length E <= length O -> inb E O p -> exists J', scanL (coords E p) O E J = (true, J').
Proof.
  induction E as [|d E IH]; intros [|o O] p J Hl Hi; cbn [coords scanL inb length] in *; eauto.
  destruct Hi as [Hm Hi]. apply Nat.ltb_lt in Hm. rewrite Hm. apply IH; auto; lia.
Qed.

Lemma scanL_true E : forall O p J J',
  length E <= length O -> scanL (coords E p) O E J = (true, J') -> inb E O p.
Proof.
  induction E as [|d E IH]; intros [|o O] p J J' Hl H; cbn [coords scanL inb length] in *; auto.
  destruct (Nat.ltb_spec (p mod d) o); [|discriminate]. split; auto. eapply IH; eauto; lia.
Qed.

Lemma scanL_false E : forall O p J J',
  Forall (fun d => 0 < d) E -> Forall (fun d => 0 < d) O -> length E <= length O ->
  good E O p -> scanL (coords E p) O E J = (false, J') ->
  exists n, J' = J * n /\ 0 < n /\ good E O (p + n) /\ (forall x, p <= x < p + n -> ~ inb E O x).
Proof.
  induction E as [|d E IH]; intros [|o O] p J J' HE HO Hl Hg H; cbn [coords scanL inb good length] in *;
    try discriminate; try lia.
  inversion HE; inversion HO; subst.
  pose proof (Nat.mod_upper_bound p d ltac:(lia)) as Hb.
  pose proof (Nat.div_mod p d ltac:(lia)) as Hp.
  destruct (Nat.ltb_spec (p mod d) o) as [Hlt|Hge].
  - destruct Hg as [Hi|[Hz Hg]].
    + exfalso. destruct (scanL_inb E O (p / d) (J * d)) as [J2 E2]; auto; [lia|]. congruence.
    + destruct (IH O (p / d) (J * d) J') as [n [EJ [Hn [Hg' Hx]]]]; auto; [lia|].
      exists (d * n). split; [lia|]. split; [apply Nat.mul_pos_pos; lia|].
      assert (Ep : p + d * n = (p / d + n) * d) by lia.
      split.
      * right. rewrite Ep, Nat.mod_mul, Nat.div_mul by lia. auto.
      * intros x Hxr [_ Hxi]. apply (Hx (x / d)); auto. split.
        -- apply Nat.div_le_mono; lia.
        -- apply Nat.div_lt_upper_bound; lia.
  - injection H as H. exists (d - p mod d). split; auto. split; [lia|].
    assert (Ep : p + (d - p mod d) = S (p / d) * d) by lia.
    split.
    + right. rewrite Ep, Nat.mod_mul, Nat.div_mul by lia. split; auto.
      apply inb_good_succ; auto. destruct Hg as [Hi|[Hz _]]; auto. lia.
    + intros x Hxr [Hxi _].
      assert (Ex : x = (x - d * (p / d)) + p / d * d) by lia.
      rewrite Ex, Nat.mod_add in Hxi by lia. rewrite Nat.mod_small in Hxi; lia.
Qed.

(** from positions to coordinates *)
Lemma inb_in_bounds E : forall O p,
  length E <= length O -> Forall (fun d => 0 < d) O -> inb E O p ->
  in_bounds O (coords E p ++ repeat 0 (length O - length E)).
Proof.
  induction E as [|d E IH]; intros [|o O] p Hl HO Hi; cbn [coords inb length app] in *; try lia.
  - constructor.
  - clear Hi. rewrite Nat.sub_0_r. change (in_bounds (o :: O) (repeat 0 (length (o :: O)))).
    clear - HO. induction HO; constructor; auto.
  - inversion HO; subst. constructor; [tauto|]. apply IH; auto; [lia|tauto].
Qed.

Lemma offset_app_zeros s c n : offset s (c ++ repeat 0 n) = offset s c.
Proof.
  revert c; induction s as [|d s IH]; intros [|x c]; simpl; auto.
  - destruct n; simpl; auto. rewrite (IH []) || idtac.
    assert (G : forall s n, offset s (repeat 0 n) = 0).
    { induction s0 as [|d0 s0 IHs]; intros [|m]; simpl; auto. rewrite IHs; lia. }
    rewrite G. lia.
Qed.

Lemma belongs_split E cr :
  belongs E cr <->
  in_bounds (firstn (length cr) E) (firstn (length E) cr) /\
  (forall k, length E <= k -> nth k cr 0 = 0) /\ (forall k, length cr <= k < length E -> 0 < nth k E 0).
Proof.
  unfold belongs. split.
  - intros H. split; [|split].
    + apply in_bounds_nth. rewrite !firstn_length. split; [lia|].
      intros k Hk. rewrite !nth_firstn_lt by lia.
      rewrite (nth_indep E 0 1) by lia. apply H.
    + intros k Hk. specialize (H k). rewrite (nth_overflow E) in H by lia. lia.
    + intros k Hk. specialize (H k). rewrite (nth_overflow cr) in H by lia.
      now rewrite (nth_indep E 0 1) by lia.
  - intros [H1 [H2 H3]] k.
    apply in_bounds_nth in H1. destruct H1 as [Hl H1]. rewrite !firstn_length in *.
    destruct (Nat.lt_ge_cases k (length E)) as [Hk|Hk].
    + destruct (Nat.lt_ge_cases k (length cr)) as [Hk'|Hk'].
      * specialize (H1 k ltac:(lia)). rewrite !nth_firstn_lt in H1 by lia.
        now rewrite (nth_indep E 1 0) by lia.
      * rewrite (nth_overflow cr) by lia. rewrite (nth_indep E 1 0) by lia. apply H3; lia.
    + rewrite H2 by lia. rewrite (nth_overflow E) by lia. lia.
Qed.

Lemma belongs_coords E O p cr :
  length E <= length O -> Forall (fun d => 0 < d) E -> in_bounds O cr -> p < prod E ->
  (belongs E cr /\ offset E cr = p <-> cr = coords E p ++ repeat 0 (length O - length E)).
Proof.
  intros Hl HE Hc Hp. pose proof (in_bounds_length _ _ Hc) as Hlc. rewrite belongs_split. split.
  - intros [[H1 [H2 _]] Ho].
    rewrite firstn_all2 in H1 by lia.
    assert (Hs : skipn (length E) cr = repeat 0 (length O - length E)).
    { rewrite (repeat_of_nth (skipn (length E) cr) 0) at 1.
      - f_equal. rewrite skipn_length; lia.
      - intros j Hj. rewrite nth_skipn'. apply H2; lia. }
    assert (Ecr : cr = firstn (length E) cr ++ repeat 0 (length O - length E)).
    { rewrite <- Hs. symmetry. apply firstn_skipn. }
    rewrite Ecr, offset_app_zeros in Ho. rewrite Ecr at 1. f_equal. rewrite <- Ho.
    symmetry. apply coords_offset. exact H1.
  - intros ->. rewrite offset_app_zeros, offset_coords_lt by auto. split; auto.
    split; [|split].
    + rewrite firstn_all2 by (rewrite app_length, coords_length, repeat_length; lia).
      rewrite firstn_app, coords_length, Nat.sub_diag, app_nil_r.
      rewrite firstn_all2 by (rewrite coords_length; lia). now apply coords_in_bounds.
    + intros k Hk. rewrite app_nth2 by (rewrite coords_length; lia).
      apply nth_repeat.
    + rewrite app_length, coords_length; intros; lia.
Qed.

Lemma belongs_inb E : forall O cr,
  length E <= length O -> Forall (fun d => 0 < d) E -> in_bounds O cr -> belongs E cr -> inb E O (offset E cr).
Proof.
  induction E as [|d E IH]; intros [|o O] cr Hl HE Hc Hb; cbn [inb length] in *; auto.
  inversion HE; subst. inversion Hc as [|? x ? c' Hx Hc']; subst.
  pose proof (Hb 0) as Hb0; simpl in Hb0.
  assert (belongs E c') by (intros k; apply (Hb (S k))).
  cbn [offset]. rewrite Nat.mul_comm, Nat.mod_add, Nat.div_add by lia.
  rewrite Nat.mod_small, Nat.div_small by lia. split; auto. apply IH; auto; lia.
Qed.

Lemma belongsb_iff s c : belongsb s c = true <-> belongs s c.
Proof.
  unfold belongsb, belongs. rewrite forallb_forall. split.
  - intros H k. destruct (Nat.lt_ge_cases k (Nat.max (length s) (length c))) as [Hk|Hk].
    + apply Nat.ltb_lt, H, in_seq; lia.
    + rewrite !nth_overflow by lia. lia.
  - intros H k _. apply Nat.ltb_lt, H.
Qed.

Lemma belongs_offset_lt E cr : Forall (fun d => 0 < d) E -> belongs E cr -> offset E cr < prod E.
Proof.
  revert cr; induction E as [|d E IH]; intros [|x cr] HE Hb; cbn [offset prod] in *; try lia;
    inversion HE; subst; pose proof (prod_pos E ltac:(auto)).
  - apply Nat.mul_pos_pos; auto.
  - pose proof (Hb 0) as Hb0; simpl in Hb0.
    assert (offset E cr < prod E) by (apply IH; auto; intros k; apply (Hb (S k))).
    apply Nat.lt_le_trans with (d * S (offset E cr)); [lia|]. apply Nat.mul_le_mono_l; lia.
Qed.

Section Loop.
Context {T : Type} (zero : T) (src : list T) (o0 d0 : nat) (O E ins : list nat).
Hypothesis Ho0 : 0 < o0.
Hypothesis Hd0 : 0 < d0.
Hypothesis HO : Forall (fun d => 0 < d) O.
Hypothesis HE : Forall (fun d => 0 < d) E.
Hypothesis HlEO : length E <= length O.
Hypothesis Hins : exists F, ins = d0 :: E ++ F.
Hypothesis Hsrc : d0 * prod E <= length src.

(** contents of dest after all positions before [p] were copied *)
Definition content (p : nat) (x : nat) (cr : list nat) : option T :=
  if (x <? d0) && belongsb E cr && (offset E cr <? p)
  then nth_error src (x + d0 * offset E cr) else Some zero.

Definition fit_I (p : nat) (dest0 dest : list T) : Prop :=
  length dest = length dest0 /\
  (forall x cr, x < o0 -> in_bounds O cr ->
    nth_error dest (x + o0 * offset O cr) = content p x cr) /\
  (forall j, o0 * prod O <= j -> nth_error dest j = nth_error dest0 j).

Lemma content_skip p p' x cr :
  in_bounds O cr -> p <= p' -> (forall y, p <= y < p' -> ~ inb E O y) -> content p x cr = content p' x cr.
Proof.
  intros Hc Hp Hn. unfold content.
  destruct (x <? d0); simpl; auto. destruct (belongsb E cr) eqn:B; simpl; auto.
  apply belongsb_iff in B.
  assert (Hi : inb E O (offset E cr)) by (apply belongs_inb; auto).
  destruct (Nat.ltb_spec (offset E cr) p), (Nat.ltb_spec (offset E cr) p'); auto; try lia.
  exfalso; apply (Hn (offset E cr)); auto.
Qed.

Lemma fit_loop_ok dest0 :
  o0 * prod O <= length dest0 ->
  forall fuel p dest,
  prod E - p <= fuel -> good E O p -> fit_I p dest0 dest ->
  exists dest', fit_loop fuel (o0 :: O) (o0 :: O) ins (d0 :: E) (S (length E)) (d0 * prod E)
       (Nat.min o0 d0) src (d0 * p) dest = Ok dest' /\ fit_I (prod E) dest0 dest'.
Proof.
  intros Hlen. induction fuel as [|fuel IH]; intros p dest Hf Hg HI.
  - cbn [fit_loop]. destruct (Nat.ltb_spec (d0 * p) (d0 * prod E)) as [Hlt|Hge].
    { apply Nat.mul_lt_mono_pos_l in Hlt; lia. }
    exists dest; split; auto. destruct HI as [I1 [I2 I3]]. split; auto. split; auto.
    intros x cr Hx Hc. rewrite I2 by auto. unfold content.
    destruct (x <? d0); simpl; auto. destruct (belongsb E cr) eqn:B; simpl; auto.
    apply belongsb_iff in B. pose proof (belongs_offset_lt E cr HE B).
    destruct (Nat.ltb_spec (offset E cr) p), (Nat.ltb_spec (offset E cr) (prod E)); auto; lia.
  - cbn [fit_loop]. destruct (Nat.ltb_spec (d0 * p) (d0 * prod E)) as [Hlt|Hge].
    2:{ assert (prod E <= p) by (apply Nat.mul_le_mono_pos_l in Hge; lia).
        exists dest; split; auto. destruct HI as [I1 [I2 I3]]. split; auto. split; auto.
        intros x cr Hx Hc. rewrite I2 by auto. unfold content.
        destruct (x <? d0); simpl; auto. destruct (belongsb E cr) eqn:B; simpl; auto.
        apply belongsb_iff in B. pose proof (belongs_offset_lt E cr HE B).
        destruct (Nat.ltb_spec (offset E cr) p), (Nat.ltb_spec (offset E cr) (prod E)); auto; lia. }
    apply Nat.mul_lt_mono_pos_l in Hlt; [|lia].
    destruct Hins as [F ->].
    rewrite coordinate_from_idx_coords by (constructor; auto). cbn [bind].
    assert (Ec : coords (d0 :: E) (d0 * p) = 0 :: coords E p).
    { cbn [coords]. rewrite Nat.mul_comm, Nat.mod_mul, Nat.div_mul by lia. reflexivity. }
    rewrite Ec.
    rewrite fit_scan_L.
    2:{ cbn [length]. rewrite coords_length. lia. }
    2:{ cbn [length]; lia. }
    2:{ cbn [length]; rewrite app_length; lia. }
    cbn [bind skipn]. replace (S (length E) - 1) with (length E) by lia.
    rewrite firstn_app, firstn_all, Nat.sub_diag. cbn [firstn]. rewrite app_nil_r.
    change (rd (d0 :: E ++ F) 0) with (@Ok nat d0). cbn [bind].
    destruct (scanL (coords E p) O E 1) as [[|] J] eqn:Es.
    + pose proof (scanL_true E O p 1 J HlEO Es) as Hi.
      rewrite flat_idx_offset by discriminate. cbn [bind offset]. rewrite Nat.add_0_l.
      set (cz := coords E p ++ repeat 0 (length O - length E)).
      assert (Hcz : in_bounds O cz) by (apply inb_in_bounds; auto).
      assert (Eo : offset O (coords E p) = offset O cz) by (unfold cz; now rewrite offset_app_zeros).
      rewrite Eo.
      pose proof (offset_lt O cz Hcz) as Hoz.
      assert (B1 : o0 * offset O cz + o0 <= o0 * prod O).
      { replace (o0 * offset O cz + o0) with (o0 * S (offset O cz)) by lia. apply Nat.mul_le_mono_l; lia. }
      assert (B2 : d0 * p + d0 <= d0 * prod E).
      { replace (d0 * p + d0) with (d0 * S p) by lia. apply Nat.mul_le_mono_l; lia. }
      destruct HI as [I1 [I2 I3]].
      destruct (memcpy_ok dest src (o0 * offset O cz) (d0 * p) (Nat.min o0 d0)) as [dest' [Em [Lm Hm]]]; [lia|lia|].
      rewrite Em. cbn [bind].
      replace (d0 * p + d0) with (d0 * S p) by lia.
      destruct (IH (S p) dest') as [dest'' [E'' I'']].
      * lia.
      * now apply inb_good_succ.
      * split; [lia|]. split.
        -- intros x cr Hx Hc. rewrite Hm, I2 by auto.
           pose proof (belongs_coords E O p cr HlEO HE Hc Hlt) as BC. fold cz in BC.
           destruct (list_eq_dec Nat.eq_dec cr cz) as [->|Hne].
           ++ destruct BC as [_ BC]. destruct BC as [Bb Bo]; auto.
              destruct (Nat.leb_spec (o0 * offset O cz) (x + o0 * offset O cz)); [|lia].
              unfold content. rewrite (proj2 (belongsb_iff E cz) Bb), Bo.
              destruct (Nat.ltb_spec x d0).
              ** destruct (Nat.ltb_spec (x + o0 * offset O cz) (o0 * offset O cz + Nat.min o0 d0)); [|lia].
                 destruct (Nat.ltb_spec p (S p)); [|lia]. cbn [andb]. f_equal; lia.
              ** destruct (Nat.ltb_spec (x + o0 * offset O cz) (o0 * offset O cz + Nat.min o0 d0)); [lia|].
                 reflexivity.
           ++ assert (Hno : offset O cr <> offset O cz).
              { intros Eq. apply Hne. now apply (offset_inj O). }
              assert (Q : (o0 * offset O cz <=? x + o0 * offset O cr) &&
                          (x + o0 * offset O cr <? o0 * offset O cz + Nat.min o0 d0) = false).
              { destruct (Nat.leb_spec (o0 * offset O cz) (x + o0 * offset O cr)); auto.
                destruct (Nat.ltb_spec (x + o0 * offset O cr) (o0 * offset O cz + Nat.min o0 d0)); auto.
                exfalso. apply Hno.
                assert (offset O cr < S (offset O cz)) by (apply (Nat.mul_lt_mono_pos_l o0); lia).
                assert (offset O cz < S (offset O cr)) by (apply (Nat.mul_lt_mono_pos_l o0); lia). lia. }
              rewrite Q. unfold content.
              destruct (x <? d0); simpl; auto. destruct (belongsb E cr) eqn:B; simpl; auto.
              apply belongsb_iff in B.
              assert (offset E cr <> p) by (intros Eq; apply Hne; apply BC; auto).
              destruct (Nat.ltb_spec (offset E cr) p), (Nat.ltb_spec (offset E cr) (S p)); auto; lia.
        -- intros j Hj. rewrite Hm.
           destruct (Nat.ltb_spec j (o0 * offset O cz + Nat.min o0 d0)); [lia|].
           rewrite andb_false_r. auto.
      * exists dest''; split; auto.
    + destruct (scanL_false E O p 1 J HE HO HlEO Hg Es) as [n [EJ [Hn [Hg' Hx]]]].
      rewrite Nat.mul_1_l in EJ. subst J.
      replace (d0 * p + n * d0) with (d0 * (p + n)) by lia.
      destruct (IH (p + n) dest) as [dest'' [E'' I'']].
      * lia.
      * exact Hg'.
      * destruct HI as [I1 [I2 I3]]. split; auto. split; auto.
        intros x cr Hxx Hc. rewrite I2 by auto. apply content_skip; auto; lia.
      * exists dest''; split; auto.
Qed.
End Loop.

Lemma fit_toshape_ok {T} (zero : T) dest outs src ins :
  defined outs -> defined ins ->
  n_elems outs <= length dest -> n_elems ins <= length src ->
  exists dest', fit_toshape zero dest outs src ins = Ok dest' /\
    length dest' = length dest /\
    (forall c, in_bounds outs c ->
       nth_error dest' (offset outs c) =
       if belongsb ins c then nth_error src (offset ins c) else Some zero) /\
    (forall c, in_bounds outs c -> belongs ins c -> offset ins c < n_elems ins) /\
    (forall j, n_elems outs <= j -> nth_error dest' j = nth_error dest j).
Proof.
  intros Ho Hi Hld Hls. unfold fit_toshape.
  rewrite (proj2 (is_fully_defined_iff outs) Ho), (proj2 (is_fully_defined_iff ins) Hi).
  cbn [andb assert_ bind].
  destruct Ho as [Hone HO], Hi as [Hine HI].
  destruct outs as [|o0 O]; [congruence|]. destruct ins as [|d0 I]; [congruence|].
  set (m := Nat.min (length O) (length I)).
  assert (Em : Nat.min (length (o0 :: O)) (length (d0 :: I)) = S m) by (cbn [length]; lia).
  rewrite Em.
  set (E := firstn m I).
  assert (LE : length E = m) by (unfold E; rewrite firstn_length; lia).
  assert (Ew : with_rank (d0 :: I) (S m) = d0 :: E).
  { unfold with_rank. cbn [length]. destruct (Nat.ltb_spec (S m) (S (length I))).
    - reflexivity.
    - destruct (Nat.ltb_spec (S (length I)) (S m)); [lia|].
      unfold E. rewrite firstn_all2 by lia. reflexivity. }
  rewrite Ew.
  rewrite !n_elems_prod in * by discriminate.
  inversion HO as [|? ? Ho0 HO']; subst. inversion HI as [|? ? Hd0 HI']; subst.
  assert (HE : Forall (fun d => 0 < d) E).
  { rewrite <- (firstn_skipn m I) in HI'. apply Forall_app in HI'. tauto. }
  assert (HF : Forall (fun d => 0 < d) (skipn m I)).
  { rewrite <- (firstn_skipn m I) in HI'. apply Forall_app in HI'. tauto. }
  assert (PI : prod I = prod E * prod (skipn m I)).
  { unfold E. rewrite <- prod_app. now rewrite firstn_skipn. }
  pose proof (prod_pos _ HF) as PF. cbn [prod] in *.
  assert (Hs : d0 * prod E <= length src).
  { apply Nat.le_trans with (d0 * prod I); auto. apply Nat.mul_le_mono_l. rewrite PI.
    rewrite <- (Nat.mul_1_r (prod E)) at 1. apply Nat.mul_le_mono_l. lia. }
  destruct (memset0_ok zero dest (o0 * prod O)) as [dz [Ez [Lz Hz]]]; [lia|].
  rewrite Ez. cbn [bind].
  change (rd (o0 :: O) 0) with (@Ok nat o0). change (rd (d0 :: I) 0) with (@Ok nat d0). cbn [bind].
  destruct (fit_loop_ok zero src o0 d0 O E (d0 :: I) Ho0 Hd0 HO' HE ltac:(lia)
     ltac:(exists (skipn m I); unfold E; now rewrite firstn_skipn) Hs dz ltac:(lia)
     (d0 * prod E) 0 dz) as [dest' [E' [I1 [I2 I3]]]].
  - rewrite Nat.sub_0_r. rewrite <- (Nat.mul_1_l (prod E)) at 1. apply Nat.mul_le_mono_r; lia.
  - apply inb_good. assert (G : forall A B, Forall (fun d => 0 < d) A -> Forall (fun d => 0 < d) B -> inb A B 0).
    { clear. induction A as [|a A IH]; intros [|b B] HA HB; cbn [inb]; auto.
      inversion HA; inversion HB; subst. rewrite Nat.mod_0_l, Nat.div_0_l by lia. auto. }
    auto.
  - split; auto. split; auto. intros x cr Hx Hc. unfold content.
    rewrite andb_false_r.
    rewrite Hz. assert (x + o0 * offset O cr < o0 * prod O).
    { pose proof (offset_lt O cr Hc).
      apply Nat.lt_le_trans with (o0 * S (offset O cr)); [lia|]. apply Nat.mul_le_mono_l; lia. }
    destruct (Nat.ltb_spec (x + o0 * offset O cr) (o0 * prod O)); auto; lia.
  - rewrite Nat.mul_0_r in E'. rewrite LE in E'. rewrite E'.
    exists dest'. split; auto. split; [lia|].
    assert (G : forall x cr, in_bounds O cr -> (belongs (d0 :: I) (x :: cr) <-> x < d0 /\ belongs E cr)).
    { intros x cr Hc. pose proof (in_bounds_length _ _ Hc) as Hlc. split.
      - intros H. split; [apply (H 0)|]. intros k. specialize (H (S k)). cbn [nth] in H.
        destruct (Nat.lt_ge_cases k m).
        + unfold E. rewrite nth_firstn_lt; auto.
        + rewrite (nth_overflow E) by lia.
          destruct (Nat.lt_ge_cases k (length I)) as [|Hk].
          * rewrite nth_overflow by lia. lia.
          * rewrite (nth_overflow I) in H by lia. lia.
      - intros [H0 H] [|k]; cbn [nth]; auto. specialize (H k).
        destruct (Nat.lt_ge_cases k m).
        + unfold E in H. rewrite nth_firstn_lt in H; auto.
        + rewrite (nth_overflow E) in H by lia.
          destruct (Nat.lt_ge_cases k (length I)) as [|Hk].
          * assert (0 < nth k I 0) by (apply Forall_nth_pos; auto).
            rewrite (nth_indep I 1 0) by lia. lia.
          * rewrite (nth_overflow I) by lia. lia. }
    assert (OE : forall cr, in_bounds O cr -> offset I cr = offset E cr).
    { intros cr Hc. pose proof (in_bounds_length _ _ Hc) as Hlc.
      rewrite <- (offset_firstn I cr m) by lia.
      rewrite <- (offset_firstn E cr m) by lia. unfold E. rewrite firstn_firstn, Nat.min_id. reflexivity. }
    split; [|split].
    + intros c Hc. inversion Hc as [|? x ? cr Hx Hcr]; subst. cbn [offset].
      rewrite I2 by auto. unfold content. rewrite (OE cr Hcr).
      assert (EB : belongsb (d0 :: I) (x :: cr) = (x <? d0) && belongsb E cr).
      { apply eq_true_iff_eq. rewrite belongsb_iff, G, andb_true_iff, Nat.ltb_lt, belongsb_iff; tauto. }
      rewrite EB. destruct ((x <? d0) && belongsb E cr) eqn:B; auto.
      apply andb_true_iff in B. destruct B as [_ B]. apply belongsb_iff in B.
      pose proof (belongs_offset_lt E cr HE B). destruct (Nat.ltb_spec (offset E cr) (prod E)); auto; lia.
    + intros c Hc Hb. apply (belongs_offset_lt (d0 :: I)); auto.
    + intros j Hj. rewrite I3 by auto. rewrite Hz. destruct (Nat.ltb_spec j (o0 * prod O)); auto; lia.
Qed.
