(** Lemmas connecting ShapeModel to ShapeSpec. *)
From Verif Require Import Common ShapeModel ShapeSpec.

Lemma fold_left_mul s a : fold_left Nat.mul s a = a * prod s.
Proof.
  revert a; induction s as [|d s IH]; intros a; simpl; [lia|]. rewrite IH; ring.
Qed.

Lemma n_elems_prod s : s <> [] -> n_elems s = prod s.
Proof.
  destruct s as [|d s]; [congruence|]; intros _. unfold n_elems.
  rewrite fold_left_mul. lia.
Qed.

Lemma is_fully_defined_iff s : is_fully_defined s = true <-> defined s.
Proof.
  unfold defined. destruct s as [|d s].
  - simpl; split; [discriminate|]. intros [H _]; congruence.
  - unfold is_fully_defined.
    assert (G : forall l b, fold_left (fun known d => known && (0 <? d)) l b = true <->
                  b = true /\ Forall (fun d => 0 < d) l).
    { induction l as [|x l IH]; intros b; simpl.
      - split; [auto|tauto].
      - rewrite IH, andb_true_iff, Nat.ltb_lt. split.
        + intros [[Hb Hx] Hl]; auto.
        + intros [Hb Hl]; inversion Hl; auto. }
    rewrite G. split; [intros [_ H]; split; [discriminate|auto]|intros [_ H]; auto].
Qed.

Lemma n_elems_pos s : defined s -> 0 < n_elems s.
Proof. intros [H1 H2]. rewrite n_elems_prod by auto. now apply prod_pos. Qed.

(** *** flat_idx *)

Lemma skipn_cons_nth {A} (l : list A) i d :
  i < length l -> skipn i l = nth i l d :: skipn (S i) l.
Proof.
  revert i; induction l as [|x l IH]; intros [|i] H; simpl in *; try lia; auto.
  apply IH; lia.
Qed.

Lemma offset_firstn s c n :
  n = Nat.min (length s) (length c) -> offset (firstn n s) (firstn n c) = offset s c.
Proof.
  revert s c; induction n as [|n IH]; intros [|d s] [|x c] H; simpl in *; try lia.
  rewrite IH; lia.
Qed.

Lemma flat_idx_offset dims coord :
  dims <> [] -> coord <> [] -> flat_idx dims coord = Ok (offset dims coord).
Proof.
  intros Hd Hc. unfold flat_idx.
  set (n := Nat.min (length dims) (length coord)).
  assert (Hn : 0 < n) by (destruct dims, coord; simpl in *; try congruence; subst n; simpl; lia).
  set (D := firstn n dims). set (C := firstn n coord).
  assert (HD : length D = n) by (subst D; rewrite firstn_length; lia).
  assert (HC : length C = n) by (subst C; rewrite firstn_length; lia).
  assert (HnD : forall k, k < n -> nth k dims 0 = nth k D 0).
  { intros k Hk. subst D. rewrite <- (firstn_skipn n dims) at 1. rewrite app_nth1; auto; lia. }
  assert (HnC : forall k, k < n -> nth k coord 0 = nth k C 0).
  { intros k Hk. subst C. rewrite <- (firstn_skipn n coord) at 1. rewrite app_nth1; auto; lia. }
  destruct (for_inv (fun k idx => idx = nth (n - 1 - k) D 0 * offset (skipn (n - k) D) (skipn (n - k) C))
      (flat_body dims coord n) (n - 1) 0) as [idx [E Hidx]].
  - rewrite Nat.sub_0_r. rewrite (skipn_all2 D) by lia. simpl. lia.
  - intros k idx Hk Hidx. unfold flat_body.
    rewrite (rd_ok coord (n - (k + 1)) (nth (n - (k+1)) coord 0)) by (apply nth_error_nth_some; lia).
    rewrite (rd_ok dims (n - (k + 1) - 1) (nth (n - (k+1) - 1) dims 0)) by (apply nth_error_nth_some; lia).
    simpl. eexists; split; [reflexivity|]. subst idx.
    rewrite HnC, HnD by lia.
    replace (n - (k+1) - 1) with (n - 1 - S k) by lia.
    rewrite Nat.mul_comm. f_equal.
    replace (n - (k + 1)) with (n - S k) by lia.
    rewrite (skipn_cons_nth D (n - S k) 0) by lia.
    rewrite (skipn_cons_nth C (n - S k) 0) by lia.
    cbn [offset]. replace (S (n - S k)) with (n - k) by lia.
    replace (n - 1 - k) with (n - S k) by lia. lia.
  - rewrite E. cbn [bind].
    rewrite (rd_ok coord 0 (nth 0 coord 0)) by (apply nth_error_nth_some; lia).
    cbn [bind]. f_equal. subst idx.
    rewrite <- (offset_firstn dims coord n) by reflexivity.
    fold D C. rewrite HnC by lia.
    replace (n - 1 - (n - 1)) with 0 by lia. replace (n - (n - 1)) with 1 by lia.
    destruct D as [|d0 D']; [simpl in HD; lia|].
    destruct C as [|c0 C']; [simpl in HC; lia|]. simpl. lia.
Qed.

Lemma flat_idx_in_bounds dims coord :
  defined dims -> in_bounds dims coord -> flat_idx dims coord = Ok (offset dims coord).
Proof.
  intros [Hne _] H. apply flat_idx_offset; auto.
  apply in_bounds_length in H. destruct coord, dims; simpl in *; congruence.
Qed.

(** *** coordinate_from_idx *)

Lemma coordinate_from_idx_coords dims i :
  Forall (fun d => 0 < d) dims -> coordinate_from_idx dims i = Ok (coords dims i).
Proof.
  intros H; revert i; induction H as [|d s Hd H IH]; intros i; simpl; auto.
  destruct (Nat.eqb_spec d 0); [lia|].
  rewrite IH. simpl. do 2 f_equal. f_equal.
  rewrite (Nat.div_mod i d) at 1 by lia.
  replace (d * (i / d) + i mod d - i mod d) with (i / d * d) by lia.
  apply Nat.div_mul; lia.
Qed.

Lemma coordinate_from_idx_ub dims i :
  Exists (fun d => d = 0) dims -> coordinate_from_idx dims i = UB.
Proof.
  intros H; revert i; induction H as [d s Hd | d s H IH]; intros i; simpl.
  - subst; reflexivity.
  - destruct (d =? 0); auto. rewrite IH; reflexivity.
Qed.

(** *** iterate *)

Lemma iterate_for {S} dims (f : list nat -> nat -> S -> res S) s :
  defined dims -> iterate dims f s = for_ (prod dims) (fun i st => f (coords dims i) i st) s.
Proof.
  intros [H1 H2]. unfold iterate. rewrite n_elems_prod by auto.
  apply for_ext; intros j t _. now rewrite coordinate_from_idx_coords.
Qed.

(** *** window loops *)

Lemma skip_up_ok v dims k b :
  b + k <= length dims ->
  exists b', skip_up v dims k b = Ok b' /\ b <= b' <= b + k /\
    (forall j, b <= j < b' -> nth j dims 0 = v) /\
    (b' < b + k -> nth b' dims 0 <> v).
Proof.
  revert b; induction k as [|k IH]; intros b H; simpl.
  - exists b; repeat split; auto; intros; lia.
  - rewrite (rd_ok dims b (nth b dims 0)) by (apply nth_error_nth_some; lia). simpl.
    destruct (Nat.eqb_spec (nth b dims 0) v) as [Hv|Hv].
    + destruct (IH (S b)) as [b' [E [H1 [H2 H3]]]]; [lia|].
      exists b'; split; auto. split; [lia|]. split.
      * intros j Hj. destruct (Nat.eq_dec j b) as [->|]; auto. apply H2; lia.
      * intros; apply H3; lia.
    + exists b; repeat split; auto; intros; lia.
Qed.

Lemma skip_down_ok v dims k e :
  k <= e -> e < length dims ->
  exists e', skip_down v dims k e = Ok e' /\ e - k <= e' <= e /\
    (forall j, e' < j <= e -> nth j dims 0 = v) /\
    (e - k < e' -> nth e' dims 0 <> v).
Proof.
  revert e; induction k as [|k IH]; intros e Hk H; simpl.
  - exists e; repeat split; auto; intros; lia.
  - rewrite (rd_ok dims e (nth e dims 0)) by (apply nth_error_nth_some; lia). simpl.
    destruct (Nat.eqb_spec (nth e dims 0) v) as [Hv|Hv].
    + destruct (IH (e - 1)) as [e' [E [H1 [H2 H3]]]]; [lia|lia|].
      exists e'; split; auto. split; [lia|]. split.
      * intros j Hj. destruct (Nat.eq_dec j e) as [->|]; auto. apply H2; lia.
      * intros; apply H3; lia.
    + exists e; repeat split; auto; intros; lia.
Qed.

Definition dimc (x y : nat) : bool := (x =? y) || negb (negb (x =? 0) && negb (y =? 0)).

Lemma dimc_iff x y : dimc x y = true <-> dim_agree x y.
Proof.
  unfold dimc, dim_agree.
  destruct (Nat.eqb_spec x y), (Nat.eqb_spec x 0), (Nat.eqb_spec y 0); simpl; split; intros; try tauto; try discriminate.
Qed.

Lemma dimc_sym x y : dimc x y = dimc y x.
Proof. unfold dimc. rewrite (Nat.eqb_sym x y), (andb_comm (negb (x =? 0))). reflexivity. Qed.


Lemma forallb_map {A B} (f : B -> bool) (g : A -> B) l :
  forallb f (map g l) = forallb (fun x => f (g x)) l.
Proof. induction l; simpl; auto. now rewrite IHl. Qed.

Lemma forallb_ext {A} (f g : A -> bool) l :
  (forall x, In x l -> f x = g x) -> forallb f l = forallb g l.
Proof.
  induction l as [|x l IH]; intros H; simpl; auto.
  rewrite H, IH; simpl; auto. intros; apply H; simpl; auto.
Qed.

Lemma cmp_window_ok a b k ba bb acc :
  ba + k <= length a -> bb + k <= length b ->
  cmp_window a b k ba bb acc =
  Ok (acc && forallb (fun j => dimc (nth (ba + j) a 0) (nth (bb + j) b 0)) (seq 0 k)).
Proof.
  revert ba bb acc; induction k as [|k IH]; intros ba bb acc Ha Hb.
  - simpl. now rewrite andb_true_r.
  - cbn [cmp_window].
    rewrite (rd_ok a ba (nth ba a 0)) by (apply nth_error_nth_some; lia).
    rewrite (rd_ok b bb (nth bb b 0)) by (apply nth_error_nth_some; lia).
    cbn [bind]. rewrite IH by lia. f_equal.
    cbn [seq forallb]. rewrite !Nat.add_0_r, <- andb_assoc.
    rewrite <- seq_shift, forallb_map. f_equal. f_equal.
    apply forallb_ext; intros j _. f_equal; f_equal; lia.
Qed.

(** window found by the one-stripping loops *)
Lemma ones_window s :
  s <> [] ->
  exists st e, skip_up 1 s (length s - 1) 0 = Ok st /\
    skip_down 1 s (length s - 1 - st) (length s - 1) = Ok e /\
    st <= e < length s /\
    (forall j, j < st -> nth j s 0 = 1) /\
    (forall j, e < j < length s -> nth j s 0 = 1) /\
    (st < e -> nth st s 0 <> 1 /\ nth e s 0 <> 1).
Proof.
  intros Hne. assert (Hl : 0 < length s) by (destruct s; simpl in *; [congruence|lia]).
  destruct (skip_up_ok 1 s (length s - 1) 0) as [st [E1 [B1 [A1 N1]]]]; [lia|].
  destruct (skip_down_ok 1 s (length s - 1 - st) (length s - 1)) as [e [E2 [B2 [A2 N2]]]]; [lia|lia|].
  exists st, e. split; [exact E1|]. split; [exact E2|]. split; [lia|]. split.
  { intros; apply A1; lia. }
  split. { intros; apply A2; lia. }
  intros Hlt; split; [apply N1; lia|apply N2; lia].
Qed.

Lemma repeat_of_nth (s : list nat) v :
  (forall j, j < length s -> nth j s 0 = v) -> s = repeat v (length s).
Proof.
  induction s as [|x s IH]; intros H; simpl; auto. f_equal.
  - apply (H 0); simpl; lia.
  - apply IH; intros j Hj. apply (H (S j)); simpl; lia.
Qed.

Lemma nth_firstn_lt {A} (l : list A) n i d : i < n -> nth i (firstn n l) d = nth i l d.
Proof.
  revert n i; induction l as [|x l IH]; intros [|n] [|i] H; simpl; auto; try lia.
  apply IH; lia.
Qed.

Lemma nth_skipn' {A} (l : list A) n i d : nth i (skipn n l) d = nth (n + i) l d.
Proof. revert n; induction l as [|x l IH]; intros [|n]; simpl; auto. destruct i; auto. Qed.

Definition window (s : shape) (st e : nat) : shape := firstn (e + 1 - st) (skipn st s).

Lemma window_length s st e : st <= e < length s -> length (window s st e) = e + 1 - st.
Proof. intros; unfold window. rewrite firstn_length, skipn_length. lia. Qed.

Lemma window_nth s st e i : st <= e < length s -> i < e + 1 - st -> nth i (window s st e) 0 = nth (st + i) s 0.
Proof. intros; unfold window. rewrite nth_firstn_lt by lia. apply nth_skipn'. Qed.

Lemma window_split s st e :
  st <= e < length s ->
  (forall j, j < st -> nth j s 0 = 1) ->
  (forall j, e < j < length s -> nth j s 0 = 1) ->
  s = repeat 1 st ++ window s st e ++ repeat 1 (length s - 1 - e).
Proof.
  intros H Ha Hb. unfold window.
  rewrite <- (firstn_skipn st s) at 1. f_equal.
  - rewrite (repeat_of_nth (firstn st s) 1) at 1.
    + f_equal. rewrite firstn_length; lia.
    + rewrite firstn_length. intros j Hj. rewrite nth_firstn_lt by lia. apply Ha; lia.
  - rewrite <- (firstn_skipn (e + 1 - st) (skipn st s)) at 1. f_equal.
    rewrite (repeat_of_nth (skipn (e + 1 - st) (skipn st s)) 1) at 1.
    + f_equal. rewrite !skipn_length; lia.
    + rewrite !skipn_length. intros j Hj. rewrite !nth_skipn'. apply Hb; lia.
Qed.

Lemma last_nth {A} (l : list A) d : last l d = nth (length l - 1) l d.
Proof.
  induction l as [|x [|y l] IH]; auto.
  change (last (x :: y :: l) d) with (last (y :: l) d). rewrite IH.
  simpl. now rewrite Nat.sub_0_r.
Qed.

Lemma hd_nth {A} (l : list A) d : hd d l = nth 0 l d.
Proof. destruct l; auto. Qed.

(** the window is the unpadded shape, except that an all-ones shape keeps one 1 *)
Lemma window_unpad s st e :
  st <= e < length s ->
  (forall j, j < st -> nth j s 0 = 1) ->
  (forall j, e < j < length s -> nth j s 0 = 1) ->
  (st < e -> nth st s 0 <> 1 /\ nth e s 0 <> 1) ->
  (unpad s = window s st e /\ (window s st e <> [1])) \/ (unpad s = [] /\ window s st e = [1]).
Proof.
  intros H Ha Hb Hw.
  pose proof (window_split s st e H Ha Hb) as E.
  pose proof (window_length s st e H) as Hl.
  destruct (Nat.eq_dec st e) as [->|Hne].
  - destruct (window s e e) as [|x [|y w]] eqn:Ew; simpl in Hl; try lia.
    destruct (Nat.eq_dec x 1) as [->|Hx].
    + right; split; auto. rewrite E.
      change ([1] ++ repeat 1 (length s - 1 - e)) with (repeat 1 (S (length s - 1 - e))).
      rewrite <- repeat_app. rewrite <- (app_nil_r (repeat 1 _)).
      change (repeat 1 (e + S (length s - 1 - e)) ++ []) with (repeat 1 (e + S (length s - 1 - e)) ++ [] ++ repeat 1 0).
      apply unpad_window; auto.
    + left; split; [|congruence]. rewrite E at 1. apply unpad_window. right; simpl; auto.
  - left. destruct Hw as [H1 H2]; [lia|]. split.
    + rewrite E at 1. apply unpad_window. right. split.
      * rewrite hd_nth, window_nth by lia. now rewrite Nat.add_0_r.
      * rewrite last_nth, Hl, window_nth by lia.
        now replace (st + (e + 1 - st - 1)) with e by lia.
    + intros Ew. rewrite Ew in Hl; simpl in Hl. lia.
Qed.

(** *** trim *)
Lemma trim_unfold s : s <> [] ->
  trim s =
   (start <- skip_up 1 s (length s - 1) 0 ;;
    e' <- skip_down 1 s (length s - 1 - start) (length s - 1) ;;
    d <- rd s e' ;;
    if (start <? e') || negb (d =? 1)
    then Ok (firstn (e' + 1 - start) (skipn start s))
    else Ok []).
Proof. destruct s; [congruence|reflexivity]. Qed.

Lemma trim_unpad s : trim s = Ok (unpad s).
Proof.
  destruct s as [|x s']; [reflexivity|]. remember (x :: s') as s eqn:Es.
  assert (Hne : s <> []) by (subst; discriminate).
  rewrite (trim_unfold s Hne).
  destruct (ones_window s Hne) as [st [e [E1 [E2 [B [A1 [A2 N]]]]]]].
  rewrite E1; cbn [bind]. rewrite E2; cbn [bind].
  rewrite (rd_ok s e (nth e s 0)) by (apply nth_error_nth_some; lia). cbn [bind].
  fold (window s st e).
  pose proof (window_length s st e B) as Hl.
  destruct (window_unpad s st e B A1 A2 N) as [[Eu Hw]|[Eu Hw]]; rewrite Eu.
  - destruct ((st <? e) || negb (nth e s 0 =? 1)) eqn:C; auto.
    apply orb_false_iff in C. destruct C as [C1 C2].
    apply Nat.ltb_ge in C1. apply negb_false_iff, Nat.eqb_eq in C2.
    assert (st = e) by lia. subst st.
    exfalso; apply Hw.
    destruct (window s e e) as [|y [|z w]] eqn:Ew; simpl in Hl; try lia.
    f_equal. pose proof (window_nth s e e 0 B) as Q. rewrite Ew in Q. simpl in Q.
    rewrite Nat.add_0_r in Q. rewrite Q; auto. lia.
  - rewrite Hw in Hl; simpl in Hl. assert (st = e) by lia. subst st.
    pose proof (window_nth s e e 0 B) as Q. rewrite Hw in Q. simpl in Q.
    rewrite Nat.add_0_r in Q. rewrite <- Q by lia.
    rewrite Nat.ltb_irrefl. reflexivity.
Qed.

(** *** is_compatible_with *)

Lemma compat_unfold a b : a <> [] -> b <> [] -> length a <> length b ->
  is_compatible_with a b =
     (beginthis <- skip_up 1 a (length a - 1) 0 ;;
      endthis <- skip_down 1 a (length a - 1 - beginthis) (length a - 1) ;;
      beginother <- skip_up 1 b (length b - 1) 0 ;;
      endother <- skip_down 1 b (length b - 1 - beginother) (length b - 1) ;;
      let lenthis := endthis - beginthis in
      let lenother := endother - beginother in
      if lenother <? lenthis then
        beginthis <- skip_up 0 a (lenthis - lenother) beginthis ;;
        endthis <- skip_down 0 a (endthis - beginthis - lenother) endthis ;;
        if lenother <? endthis - beginthis then Ok false
        else cmp_window a b (Nat.min (endthis + 1 - beginthis) (endother + 1 - beginother)) beginthis beginother true
      else if lenthis <? lenother then
        beginother <- skip_up 0 b (lenother - lenthis) beginother ;;
        endother <- skip_down 0 b (endother - beginother - lenthis) endother ;;
        if lenthis <? endother - beginother then Ok false
        else cmp_window a b (Nat.min (endthis + 1 - beginthis) (endother + 1 - beginother)) beginthis beginother true
      else cmp_window a b (Nat.min (endthis + 1 - beginthis) (endother + 1 - beginother)) beginthis beginother true).
Proof.
  intros Ha Hb Hl. unfold is_compatible_with.
  destruct a as [|x a]; [congruence|]. destruct b as [|y b]; [congruence|].
  destruct (Nat.eqb_spec (length (x :: a)) (length (y :: b))); [lia|reflexivity].
Qed.

Lemma compat_same_rank a b : length a = length b ->
  is_compatible_with a b =
  Ok (forallb (fun j => dimc (nth j a 0) (nth j b 0)) (seq 0 (length a))).
Proof.
  intros Hl. unfold is_compatible_with.
  destruct a as [|x a]; [reflexivity|]. destruct b as [|y b]; [discriminate|].
  destruct (Nat.eqb_spec (length (x :: a)) (length (y :: b))); [|lia].
  rewrite cmp_window_ok by (cbn [length] in *; lia). cbn [andb Nat.add]. do 3 f_equal.
  cbn [length] in *. lia.
Qed.

(** the value as an index window of each argument *)
Definition cmpw (a b : shape) (ba bb k : nat) : bool :=
  forallb (fun j => dimc (nth (ba + j) a 0) (nth (bb + j) b 0)) (seq 0 k).

Lemma cmpw_sym a b ba bb k : cmpw a b ba bb k = cmpw b a bb ba k.
Proof. unfold cmpw. apply forallb_ext; intros; apply dimc_sym. Qed.

(** description of the rank-mismatch branch, symmetric up to swapping *)
Inductive compat_case (a b : shape) : bool -> Prop :=
| cc_eq ba ea bb eb :
    ea - ba = eb - bb -> ba <= ea < length a -> bb <= eb < length b ->
    skip_up 1 a (length a - 1) 0 = Ok ba -> skip_down 1 a (length a - 1 - ba) (length a - 1) = Ok ea ->
    skip_up 1 b (length b - 1) 0 = Ok bb -> skip_down 1 b (length b - 1 - bb) (length b - 1) = Ok eb ->
    compat_case a b (cmpw a b ba bb (ea + 1 - ba))
| cc_a ba ea bb eb ba' ea' :
    eb - bb < ea - ba -> ba <= ea < length a -> bb <= eb < length b ->
    skip_up 1 a (length a - 1) 0 = Ok ba -> skip_down 1 a (length a - 1 - ba) (length a - 1) = Ok ea ->
    skip_up 1 b (length b - 1) 0 = Ok bb -> skip_down 1 b (length b - 1 - bb) (length b - 1) = Ok eb ->
    skip_up 0 a ((ea - ba) - (eb - bb)) ba = Ok ba' -> skip_down 0 a (ea - ba' - (eb - bb)) ea = Ok ea' ->
    compat_case a b (if eb - bb <? ea' - ba' then false else cmpw a b ba' bb (eb + 1 - bb))
| cc_b ba ea bb eb bb' eb' :
    ea - ba < eb - bb -> ba <= ea < length a -> bb <= eb < length b ->
    skip_up 1 a (length a - 1) 0 = Ok ba -> skip_down 1 a (length a - 1 - ba) (length a - 1) = Ok ea ->
    skip_up 1 b (length b - 1) 0 = Ok bb -> skip_down 1 b (length b - 1 - bb) (length b - 1) = Ok eb ->
    skip_up 0 b ((eb - bb) - (ea - ba)) bb = Ok bb' -> skip_down 0 b (eb - bb' - (ea - ba)) eb = Ok eb' ->
    compat_case a b (if ea - ba <? eb' - bb' then false else cmpw a b ba bb' (ea + 1 - ba)).

Lemma compat_cases a b : a <> [] -> b <> [] -> length a <> length b ->
  exists r, is_compatible_with a b = Ok r /\ compat_case a b r.
Proof.
  intros Ha Hb Hl. rewrite compat_unfold by auto.
  destruct (ones_window a Ha) as [ba [ea [E1 [E2 [B1 _]]]]].
  destruct (ones_window b Hb) as [bb [eb [E3 [E4 [B2 _]]]]].
  rewrite E1; cbn [bind]. rewrite E2; cbn [bind]. rewrite E3; cbn [bind]. rewrite E4; cbn [bind].
  cbv zeta.
  destruct (Nat.ltb_spec (eb - bb) (ea - ba)) as [Hlt|Hge].
  - destruct (skip_up_ok 0 a ((ea - ba) - (eb - bb)) ba) as [ba' [E5 [B5 _]]]; [lia|].
    destruct (skip_down_ok 0 a (ea - ba' - (eb - bb)) ea) as [ea' [E6 [B6 _]]]; [lia|lia|].
    rewrite E5; cbn [bind]. rewrite E6; cbn [bind].
    eexists; split; [|eapply cc_a; eauto].
    destruct (Nat.ltb_spec (eb - bb) (ea' - ba')); auto.
    rewrite cmp_window_ok by lia. cbn [andb]. unfold cmpw. do 3 f_equal. lia.
  - destruct (Nat.ltb_spec (ea - ba) (eb - bb)) as [Hlt'|Hge'].
    + destruct (skip_up_ok 0 b ((eb - bb) - (ea - ba)) bb) as [bb' [E5 [B5 _]]]; [lia|].
      destruct (skip_down_ok 0 b (eb - bb' - (ea - ba)) eb) as [eb' [E6 [B6 _]]]; [lia|lia|].
      rewrite E5; cbn [bind]. rewrite E6; cbn [bind].
      eexists; split; [|eapply cc_b; eauto].
      destruct (Nat.ltb_spec (ea - ba) (eb' - bb')); auto.
      rewrite cmp_window_ok by lia. cbn [andb]. unfold cmpw. do 3 f_equal. lia.
    + exists (cmpw a b ba bb (ea + 1 - ba)); split; [|apply (cc_eq a b ba ea bb eb); auto; lia].
      rewrite cmp_window_ok by lia. cbn [andb]. unfold cmpw. do 3 f_equal. lia.
Qed.

Lemma compat_case_sym a b r : compat_case a b r -> compat_case b a r.
Proof.
  intros H; inversion H; subst.
  - rewrite cmpw_sym. replace (ea + 1 - ba) with (eb + 1 - bb) by lia.
    eapply cc_eq; eauto.
  - rewrite cmpw_sym. eapply cc_b; eauto.
  - rewrite cmpw_sym. eapply cc_a; eauto.
Qed.

Lemma compat_case_det a b r r' : compat_case a b r -> compat_case a b r' -> r = r'.
Proof.
  intros H H'. inversion H; inversion H'; subst; try congruence;
  repeat match goal with
  | E1 : skip_up ?v ?s ?k ?b = Ok ?x, E2 : skip_up ?v ?s ?k ?b = Ok ?y |- _ =>
      rewrite E1 in E2; injection E2 as E2; try subst y; try subst x
  | E1 : skip_down ?v ?s ?k ?b = Ok ?x, E2 : skip_down ?v ?s ?k ?b = Ok ?y |- _ =>
      rewrite E1 in E2; injection E2 as E2; try subst y; try subst x
  end; auto; try lia.
Qed.

Lemma compat_total a b : exists r, is_compatible_with a b = Ok r.
Proof.
  destruct a as [|x a]; [exists true; reflexivity|].
  destruct b as [|y b]; [exists true; reflexivity|].
  destruct (Nat.eq_dec (length (x :: a)) (length (y :: b))).
  - eexists; now apply compat_same_rank.
  - destruct (compat_cases (x :: a) (y :: b)) as [r [E _]]; try congruence. eauto.
Qed.

Lemma compat_sym a b : is_compatible_with a b = is_compatible_with b a.
Proof.
  destruct a as [|x a], b as [|y b]; try reflexivity.
  destruct (Nat.eq_dec (length (x :: a)) (length (y :: b))) as [Hl|Hl].
  - rewrite !compat_same_rank by auto. rewrite Hl. f_equal.
    apply forallb_ext; intros; apply dimc_sym.
  - destruct (compat_cases (x :: a) (y :: b)) as [r [E H]]; try congruence.
    destruct (compat_cases (y :: b) (x :: a)) as [r' [E' H']]; try congruence.
    rewrite E, E'. f_equal. apply (compat_case_det (x :: a) (y :: b)); auto.
    now apply compat_case_sym.
Qed.

Lemma compat_refl a : is_compatible_with a a = Ok true.
Proof.
  rewrite compat_same_rank by auto. f_equal. apply forallb_forall; intros.
  unfold dimc. now rewrite Nat.eqb_refl.
Qed.

Lemma compat_undefined a : is_compatible_with [] a = Ok true /\ is_compatible_with a [] = Ok true.
Proof. split; [reflexivity|]. destruct a; reflexivity. Qed.

Lemma compat_same_rank_iff a b :
  length a = length b ->
  (is_compatible_with a b = Ok true <-> Forall2 dim_agree a b).
Proof.
  intros Hl. rewrite compat_same_rank by auto. split.
  - intros E. injection E as E. rewrite forallb_forall in E.
    revert b Hl E; induction a as [|x a IH]; intros [|y b] Hl E; try discriminate; constructor.
    + apply dimc_iff. apply (E 0). apply in_seq; simpl; lia.
    + apply IH; [simpl in Hl; lia|]. intros j Hj. apply in_seq in Hj.
      apply (E (S j)). apply in_seq; simpl; lia.
  - intros F. f_equal. apply forallb_forall. intros j Hj. apply in_seq in Hj.
    apply dimc_iff. clear Hl.
    revert j Hj; induction F as [|x y a b Hxy F IH]; intros j Hj; simpl in Hj; [lia|].
    destruct j as [|j]; simpl; auto. apply IH; lia.
Qed.

Lemma Forall2_agree_defined a b :
  Forall (fun d => 0 < d) a -> Forall (fun d => 0 < d) b -> Forall2 dim_agree a b -> a = b.
Proof.
  intros Ha Hb H. induction H as [|x y a b Hxy H IH]; auto.
  inversion Ha; inversion Hb; subst. f_equal; auto. unfold dim_agree in Hxy; lia.
Qed.

Lemma Forall_nth_pos s i : Forall (fun d => 0 < d) s -> i < length s -> 0 < nth i s 0.
Proof.
  intros H Hi. rewrite Forall_forall in H. apply H. now apply nth_In.
Qed.

Lemma skip_up_0_pos s k b :
  Forall (fun d => 0 < d) s -> b + k <= length s -> skip_up 0 s k b = Ok b.
Proof.
  intros H Hb. destruct (skip_up_ok 0 s k b Hb) as [b' [E [B [A _]]]].
  rewrite E. f_equal. destruct (Nat.eq_dec b b'); auto.
  pose proof (Forall_nth_pos s b H). rewrite A in H0 by lia. lia.
Qed.

Lemma skip_down_0_pos s k e :
  Forall (fun d => 0 < d) s -> k <= e -> e < length s -> skip_down 0 s k e = Ok e.
Proof.
  intros H Hk He. destruct (skip_down_ok 0 s k e Hk He) as [e' [E [B [A _]]]].
  rewrite E. f_equal. destruct (Nat.eq_dec e e'); auto.
  pose proof (Forall_nth_pos s e H). rewrite A in H0 by lia. lia.
Qed.

Lemma compat_defined_iff a b :
  defined a -> defined b ->
  (is_compatible_with a b = Ok true <->
   (length a = length b /\ a = b) \/ (length a <> length b /\ unpad a = unpad b)).
Proof.
  intros [Ha Pa] [Hb Pb].
  destruct (Nat.eq_dec (length a) (length b)) as [Hl|Hl].
  - rewrite compat_same_rank_iff by auto. split.
    + intros; left; split; auto. now apply Forall2_agree_defined.
    + intros [[_ ->]|[N _]]; [|congruence].
      clear. induction b; constructor; auto. now left.
  - assert (G : is_compatible_with a b = Ok true <-> unpad a = unpad b).
    2:{ rewrite G. split; [auto|]. intros [[? _]|[_ ?]]; [congruence|auto]. }
    rewrite compat_unfold by auto.
    destruct (ones_window a Ha) as [ba [ea [E1 [E2 [B1 [A1 [A1' N1]]]]]]].
    destruct (ones_window b Hb) as [bb [eb [E3 [E4 [B2 [A2 [A2' N2]]]]]]].
    rewrite E1; cbn [bind]. rewrite E2; cbn [bind]. rewrite E3; cbn [bind]. rewrite E4; cbn [bind].
    cbv zeta.
    pose proof (window_unpad a ba ea B1 A1 A1' N1) as U1.
    pose proof (window_unpad b bb eb B2 A2 A2' N2) as U2.
    pose proof (window_length a ba ea B1) as L1.
    pose proof (window_length b bb eb B2) as L2.
    destruct (Nat.ltb_spec (eb - bb) (ea - ba)) as [Hlt|Hge].
    { rewrite skip_up_0_pos by (auto; lia). cbn [bind].
      rewrite skip_down_0_pos by (auto; lia). cbn [bind].
      destruct (Nat.ltb_spec (eb - bb) (ea - ba)); [|lia].
      split; [discriminate|]. intros E. exfalso.
      destruct U1 as [[Ea W1]|[_ W1]]; [|rewrite W1 in L1; simpl in L1; lia].
      destruct U2 as [[Eb W2]|[Eb W2]]; rewrite Ea, Eb in E; apply (f_equal (@length nat)) in E;
      [|simpl in E]; lia. }
    destruct (Nat.ltb_spec (ea - ba) (eb - bb)) as [Hlt'|Hge'].
    { rewrite skip_up_0_pos by (auto; lia). cbn [bind].
      rewrite skip_down_0_pos by (auto; lia). cbn [bind].
      destruct (Nat.ltb_spec (ea - ba) (eb - bb)); [|lia].
      split; [discriminate|]. intros E. exfalso.
      destruct U2 as [[Eb W2]|[_ W2]]; [|rewrite W2 in L2; simpl in L2; lia].
      destruct U1 as [[Ea W1]|[Ea W1]]; rewrite Ea, Eb in E; apply (f_equal (@length nat)) in E;
      [|simpl in E]; lia. }
    rewrite cmp_window_ok by lia. cbn [andb].
    assert (W : forallb (fun j => dimc (nth (ba + j) a 0) (nth (bb + j) b 0))
                  (seq 0 (Nat.min (ea + 1 - ba) (eb + 1 - bb))) = true <-> window a ba ea = window b bb eb).
    { replace (Nat.min (ea + 1 - ba) (eb + 1 - bb)) with (ea + 1 - ba) by lia.
      rewrite forallb_forall. split.
      - intros F. apply nth_ext with 0 0; [lia|]. intros n Hn. rewrite L1 in Hn.
        rewrite !window_nth by lia.
        assert (D : dim_agree (nth (ba + n) a 0) (nth (bb + n) b 0)).
        { apply dimc_iff, F, in_seq; lia. }
        pose proof (Forall_nth_pos a (ba + n) Pa). pose proof (Forall_nth_pos b (bb + n) Pb).
        unfold dim_agree in D. lia.
      - intros E j Hj. apply in_seq in Hj. apply dimc_iff. left.
        rewrite <- (window_nth a ba ea), <- (window_nth b bb eb) by lia. now rewrite E. }
    split.
    + intros E. injection E as E. apply W in E.
      destruct U1 as [[-> W1]|[-> W1]], U2 as [[-> W2]|[-> W2]]; congruence.
    + intros E. f_equal. apply W.
      destruct U1 as [[Ea W1]|[Ea W1]], U2 as [[Eb W2]|[Eb W2]]; rewrite Ea, Eb in E; try congruence.
      * rewrite E in L1; simpl in L1; lia.
      * rewrite <- E in L2; simpl in L2; lia.
Qed.

Lemma compat_n_elems a b :
  defined a -> defined b -> is_compatible_with a b = Ok true -> n_elems a = n_elems b.
Proof.
  intros Ha Hb H. rewrite !n_elems_prod by (apply Ha || apply Hb).
  apply compat_defined_iff in H; auto. destruct H as [[_ ->]|[_ E]]; auto.
  rewrite <- (prod_unpad a), <- (prod_unpad b). now rewrite E.
Qed.

(** *** merge_with *)
Definition merge1 (v o : nat) : nat := if v =? 0 then o else v.

Lemma merge_dims_spec a b : length a = length b -> merge_dims a b = map (fun p => merge1 (fst p) (snd p)) (combine a b).
Proof.
  revert b; induction a as [|v a IH]; intros [|o b] H; simpl in *; try discriminate; auto.
  f_equal; [|apply IH; lia]. unfold merge1.
  destruct (Nat.eqb_spec v o), (Nat.eqb_spec v 0), (Nat.eqb_spec o 0); simpl; lia.
Qed.

Lemma merge_with_throw a b :
  merge_with a b = Throw <-> a <> [] /\ b <> [] /\ length a <> length b.
Proof.
  unfold merge_with. destruct a as [|x a], b as [|y b]; try (split; [discriminate|intros [? [? ?]]; congruence]).
  destruct (Nat.eqb_spec (length (x :: a)) (length (y :: b))); split; try discriminate; try congruence.
  - intros [_ [_ ?]]; congruence.
  - intros _; repeat split; congruence.
Qed.

Lemma merge_dims_length a b : length a = length b -> length (merge_dims a b) = length a.
Proof.
  revert b; induction a as [|v a IH]; intros [|o b] H; simpl in *; try discriminate; auto.
Qed.

Lemma merge_dims_nth a b k : length a = length b -> k < length a ->
  nth k (merge_dims a b) 0 = (if nth k a 0 =? 0 then nth k b 0 else nth k a 0).
Proof.
  revert b k; induction a as [|v a IH]; intros [|o b] k H Hk; simpl in *; try lia.
  destruct k as [|k]; [|apply IH; lia].
  destruct (Nat.eqb_spec v o), (Nat.eqb_spec v 0), (Nat.eqb_spec o 0); simpl; lia.
Qed.

Lemma merge_dims_comm a b : Forall2 dim_agree a b -> merge_dims a b = merge_dims b a.
Proof.
  induction 1 as [|x y a b H F IH]; simpl; auto. f_equal; auto.
  unfold dim_agree in H.
  destruct (Nat.eqb_spec x y), (Nat.eqb_spec y x), (Nat.eqb_spec x 0), (Nat.eqb_spec y 0); simpl; lia.
Qed.

Lemma merge_dims_idem a : merge_dims a a = a.
Proof. induction a; simpl; auto. rewrite Nat.eqb_refl. simpl. now f_equal. Qed.

Lemma merge_dims_agree_l a b : length a = length b -> Forall2 dim_agree (merge_dims a b) a.
Proof.
  revert b; induction a as [|v a IH]; intros [|o b] H; simpl in *; try discriminate; constructor; auto.
  unfold dim_agree.
  destruct (Nat.eqb_spec v o), (Nat.eqb_spec v 0), (Nat.eqb_spec o 0); simpl; lia.
Qed.

Lemma merge_dims_agree_r a b : Forall2 dim_agree a b -> Forall2 dim_agree (merge_dims a b) b.
Proof.
  induction 1 as [|v o a b H F IH]; simpl; constructor; auto.
  unfold dim_agree in *.
  destruct (Nat.eqb_spec v o), (Nat.eqb_spec v 0), (Nat.eqb_spec o 0); simpl; lia.
Qed.

(** *** with_rank family *)
Lemma with_rank_length s r : length (with_rank s r) = r.
Proof.
  unfold with_rank. destruct (Nat.ltb_spec r (length s)).
  - rewrite firstn_length; lia.
  - destruct (Nat.ltb_spec (length s) r); [|lia]. rewrite app_length, repeat_length; lia.
Qed.

Lemma with_rank_nth s r k : k < r -> nth k (with_rank s r) 0 = (if k <? length s then nth k s 0 else 1).
Proof.
  intros Hk. unfold with_rank. destruct (Nat.ltb_spec k (length s)).
  - destruct (Nat.ltb_spec r (length s)); [now apply nth_firstn_lt|].
    destruct (Nat.ltb_spec (length s) r); auto. now rewrite app_nth1.
  - destruct (Nat.ltb_spec r (length s)); [lia|].
    destruct (Nat.ltb_spec (length s) r); [|lia].
    rewrite app_nth2 by lia. rewrite nth_indep with (d' := 1).
    + apply nth_repeat.
    + rewrite repeat_length; lia.
Qed.

Lemma with_rank_at_least_eq s r :
  with_rank_at_least s r = s ++ repeat 1 (r - length s).
Proof.
  unfold with_rank_at_least. destruct (Nat.ltb_spec (length s) r); auto.
  replace (r - length s) with 0 by lia. now rewrite app_nil_r.
Qed.

Lemma with_rank_at_most_eq s r : with_rank_at_most s r = firstn r s.
Proof.
  unfold with_rank_at_most. destruct (Nat.ltb_spec r (length s)); auto.
  now rewrite firstn_all2 by lia.
Qed.

Lemma concatenate_app a b : concatenate a b = a ++ b.
Proof. destruct a, b; simpl; auto. now rewrite app_nil_r. Qed.

(** *** n_known *)
Lemma fold_left_known s a :
  fold_left (fun a b => if b =? 0 then a else a * b) s a = a * prod (filter (fun d => negb (d =? 0)) s).
Proof.
  revert a; induction s as [|d s IH]; intros a; simpl; [lia|]. rewrite IH.
  destruct (Nat.eqb_spec d 0); simpl; auto. ring.
Qed.

Lemma n_known_spec s : s <> [] -> n_known s = prod (filter (fun d => negb (d =? 0)) s).
Proof.
  destruct s; [congruence|]. intros _. unfold n_known. rewrite fold_left_known. lia.
Qed.
