(** Facts used by the law that cross_corr2d always reads outside its image (C48). *)
From Verif Require Import Common ShapeModel ShapeSpec ShapeProofs TransformModel TransformSpec TransformProofs.

(** the result is UB or a value that satisfies [P] *)
Definition ok_or_ub {A} (P : A -> Prop) (r : res A) : Prop := r = UB \/ exists a, r = Ok a /\ P a.

Lemma for_ok_or_ub {S} (P : nat -> S -> Prop) (body : nat -> S -> res S) n s :
  P 0 s -> (forall i t, i < n -> P i t -> ok_or_ub (P (Datatypes.S i)) (body i t)) ->
  ok_or_ub (P n) (for_ n body s).
Proof.
  intros H0 Hs. induction n as [|n IH]; [right; exists s; now split|].
  rewrite for_succ. destruct IH as [E|[t [E Ht]]].
  - intros i t Hi Ht. apply Hs; [lia|exact Ht].
  - left. now rewrite E.
  - rewrite E. cbn [bind]. apply Hs; [lia|exact Ht].
Qed.

(** a loop whose last round is undefined *)
Lemma for_last_ub {S} (P : nat -> S -> Prop) (body : nat -> S -> res S) n s :
  P 0 s -> (forall i t, i < n -> P i t -> ok_or_ub (P (Datatypes.S i)) (body i t)) ->
  (forall t, P n t -> body n t = UB) ->
  for_ (Datatypes.S n) body s = UB.
Proof.
  intros H0 Hs Hl. rewrite for_succ. destruct (for_ok_or_ub P body n s H0 Hs) as [E|[t [E Ht]]]; rewrite E; cbn [bind]; auto.
Qed.

Lemma bind_ok_or_ub {A B} (Q : A -> Prop) (P : B -> Prop) (r : res A) (k : A -> res B) :
  ok_or_ub Q r -> (forall a, Q a -> ok_or_ub P (k a)) -> ok_or_ub P (bind r k).
Proof. intros [->|[a [-> Ha]]] H; cbn [bind]; [now left|auto]. Qed.

Lemma rd_ok_or_ub {A} (l : list A) i : ok_or_ub (fun _ => True) (rd l i).
Proof. unfold rd. destruct (nth_error l i); [right; eauto|now left]. Qed.

Lemma wr_ok_or_ub {A} (l : list A) i (v : A) : ok_or_ub (fun l' => l' = set_nth i v l) (wr l i v).
Proof. unfold wr. destruct (i <? length l); [right; eauto|now left]. Qed.

(** a coordinate that is too large in one dimension and maximal in all later ones lies at
    or after the end of the buffer *)
Lemma offset_beyond s : forall c k, length c = length s -> k < length s -> nth k s 0 <= nth k c 0 ->
  (forall m, k < m < length s -> nth m s 0 <= nth m c 0 + 1) -> prod s <= offset s c.
Proof.
  assert (M : forall s c, length c = length s -> (forall m, m < length s -> nth m s 0 <= nth m c 0 + 1) -> prod s <= offset s c + 1).
  { clear s. induction s as [|d s IH]; intros [|x c] L H; try discriminate; [cbn; lia|].
    pose proof (IH c ltac:(cbn in L; lia) (fun m Hm => H (S m) ltac:(cbn; lia))) as I1.
    pose proof (H 0 ltac:(cbn; lia)) as H0. cbn in H0. cbn [prod offset].
    assert (d * prod s <= d * (offset s c + 1)) by (apply Nat.mul_le_mono_l; lia). lia. }
  induction s as [|d s IH]; intros [|x c] k L Hk Hx H; try discriminate; [cbn in Hk; lia|]. cbn [prod offset].
  destruct k as [|k]; cbn in Hk, Hx.
  - pose proof (M s c ltac:(cbn in L; lia) (fun m Hm => H (S m) ltac:(cbn; lia))) as I1.
    assert (d * prod s <= d * (offset s c + 1)) by (apply Nat.mul_le_mono_l; lia). lia.
  - pose proof (IH c k ltac:(cbn in L; lia) ltac:(lia) Hx (fun m Hm => H (S m) ltac:(cbn; lia))) as I1.
    assert (d * prod s <= d * offset s c) by (apply Nat.mul_le_mono_l; lia). lia.
Qed.

(** the last element of a shape has the largest coordinate in every dimension *)
Lemma coords_last s : Forall (fun d => 0 < d) s -> forall k, k < length s -> nth k (coords s (prod s - 1)) 0 = nth k s 0 - 1.
Proof.
  induction 1 as [|d s Hd Hs IH]; intros k Hk; cbn in Hk; [lia|]. cbn [prod coords].
  pose proof (prod_pos s Hs) as Hp.
  assert (E : d * prod s - 1 = (d - 1) + (prod s - 1) * d) by nia. rewrite E.
  rewrite Nat.div_add, Nat.mod_add by lia. rewrite Nat.div_small, Nat.mod_small by lia.
  destruct k as [|k]; [reflexivity|]. cbn [nth]. rewrite Nat.add_0_l. apply IH. lia.
Qed.

Section corr.
Context {T : Type} (zero : T) (add mul : T -> T -> T).

(** what the coordinate vector is inside the loops for the last output element, in round
    [j] of the outer and [k] of the inner loop *)
Definition at_round (d1 d2 : nat) (outs : shape) (n2 j k : nat) (coord : list nat) : Prop :=
  length coord = length outs /\ nth d1 coord 0 = nth d1 outs 0 - 1 + j /\
  nth d2 coord 0 = nth d2 outs 0 - 1 + j * n2 + k /\
  forall m, m <> d1 -> m <> d2 -> m < length outs -> nth m coord 0 = nth m outs 0 - 1.

Lemma nth_rd {A} (l : list A) i x0 : i < length l -> rd l i = Ok (nth i l x0).
Proof. intros H. apply rd_ok. now apply nth_error_nth'. Qed.

Lemma nth_set_same {A} i (v : A) l d : i < length l -> nth i (set_nth i v l) d = v.
Proof. intros H. rewrite nth_set_nth, Nat.eqb_refl. destruct (Nat.ltb_spec i (length l)); [reflexivity|lia]. Qed.

Lemma nth_set_other {A} i j (v : A) l d : j <> i -> nth j (set_nth i v l) d = nth j l d.
Proof. intros H. rewrite nth_set_nth. destruct (Nat.eqb_spec i j); [lia|reflexivity]. Qed.

Lemma at_round_next2 d1 d2 outs n2 j k coord : d1 <> d2 -> d2 < length outs -> at_round d1 d2 outs n2 j k coord ->
  at_round d1 d2 outs n2 j (S k) (set_nth d2 (nth d2 coord 0 + 1) coord).
Proof.
  intros Hne H2 [L [A [B C]]]. split; [now rewrite length_set_nth|].
  rewrite nth_set_other, nth_set_same by lia. split; [auto|]. split; [lia|].
  intros m Hm1 Hm2 Hm. rewrite nth_set_other by auto. auto.
Qed.

Lemma at_round_next1 d1 d2 outs n2 j coord : d1 <> d2 -> d1 < length outs -> at_round d1 d2 outs n2 j n2 coord ->
  at_round d1 d2 outs n2 (S j) 0 (set_nth d1 (nth d1 coord 0 + 1) coord).
Proof.
  intros Hne H1 [L [A [B C]]]. split; [now rewrite length_set_nth|].
  rewrite nth_set_same, nth_set_other by lia. split; [lia|]. split; [lia|].
  intros m Hm1 Hm2 Hm. rewrite nth_set_other by auto. auto.
Qed.

(** one round of the inner loop: transform.ipp:546-548 *)
Lemma inner_round d1 d2 outs ins n1 n2 (src0 : list T) i j k coord d :
  d1 <> d2 -> d2 < length outs -> ins <> [] -> at_round d1 d2 outs n2 j k coord ->
  ok_or_ub (fun st : list nat * list T => at_round d1 d2 outs n2 j (S k) (fst st))
    (p <- flat_idx ins coord ;;
     a <- rd src0 p ;;
     b <- rd src0 (k * n1 + j) ;;
     acc <- rd d i ;;
     d <- wr d i (add acc (mul a b)) ;;
     y <- rd coord d2 ;;
     coord <- wr coord d2 (y + 1) ;;
     Ok (coord, d)).
Proof.
  intros Hne H2 Hi A.
  assert (L : length coord = length outs) by apply A.
  rewrite flat_idx_offset; [|auto|destruct coord; [cbn in L; lia|discriminate]]. cbn [bind].
  apply (bind_ok_or_ub _ _ _ _ (rd_ok_or_ub src0 _)). intros a _.
  apply (bind_ok_or_ub _ _ _ _ (rd_ok_or_ub src0 _)). intros b _.
  apply (bind_ok_or_ub _ _ _ _ (rd_ok_or_ub d _)). intros acc _.
  apply (bind_ok_or_ub _ _ _ _ (wr_ok_or_ub d _ _)). intros d' _.
  rewrite (nth_rd coord d2 0) by lia. cbn [bind]. rewrite wr_ok by lia. cbn [bind].
  right. eexists. split; [reflexivity|]. cbn [fst]. now apply at_round_next2.
Qed.

Lemma corr_last_ub d1 d2 outs ins (src0 : list T) n1 n2 i coord (d : list T) :
  d1 < d2 -> d1 < length outs -> d2 < length outs -> length ins = length outs ->
  (forall m, m <> d1 -> m <> d2 -> nth m ins 0 = nth m outs 0) ->
  1 < n1 -> 1 < n2 -> nth d1 ins 0 = nth d1 outs 0 + n1 -> nth d2 ins 0 = nth d2 outs 0 + n2 ->
  0 < nth d1 outs 0 -> 0 < nth d2 outs 0 ->
  length src0 = prod ins -> at_round d1 d2 outs n2 0 0 coord ->
  for_ n1 (fun j (st : list nat * list T) =>
           st <- for_ n2 (fun k (st : list nat * list T) =>
                   let '(coord, d) := st in
                   p <- flat_idx ins coord ;;
                   a <- rd src0 p ;;
                   b <- rd src0 (k * n1 + j) ;;
                   acc <- rd d i ;;
                   d <- wr d i (add acc (mul a b)) ;;
                   y <- rd coord d2 ;;
                   coord <- wr coord d2 (y + 1) ;;
                   Ok (coord, d)) st ;;
           let '(coord, d) := st in
           x <- rd coord d1 ;;
           coord <- wr coord d1 (x + 1) ;;
           Ok (coord, d)) (coord, d) = UB.
Proof.
  intros Hlt H1 H2 Li Hm N1 N2 I1 I2 P1 P2 Ls A. assert (Hne : d1 <> d2) by lia.
  destruct n1 as [|n1]; [lia|]. assert (Hi : ins <> []) by (intros ->; cbn in Li; lia).
  apply (for_last_ub (fun j (st : list nat * list T) => at_round d1 d2 outs n2 j 0 (fst st))); [exact A| |].
  - intros j [c e] Hj B. cbn [fst] in B.
    apply (bind_ok_or_ub (fun st => at_round d1 d2 outs n2 j n2 (fst st))).
    + apply (for_ok_or_ub (fun k (st : list nat * list T) => at_round d1 d2 outs n2 j k (fst st))); [exact B|].
      intros k [c' e'] Hk B'. cbn [fst] in B'. now apply inner_round.
    + intros [c' e'] B'. cbn [fst] in B'. assert (L : length c' = length outs) by apply B'.
      rewrite (nth_rd c' d1 0) by lia. cbn [bind]. rewrite wr_ok by lia. cbn [bind].
      right. eexists. split; [reflexivity|]. cbn [fst]. now apply at_round_next1.
  - intros [c e] B. cbn [fst] in B. destruct n2 as [|n2]; [lia|].
    erewrite (for_last_ub (fun k (st : list nat * list T) => at_round d1 d2 outs (S n2) n1 k (fst st))); [reflexivity|exact B| |].
    + intros k [c' e'] Hk B'. cbn [fst] in B'. now apply inner_round.
    + intros [c' e'] [L [B1 [B2 B3]]]. cbn [fst] in *.
      rewrite flat_idx_offset; [|destruct ins; [cbn in Li; lia|discriminate]|destruct c'; [cbn in L; lia|discriminate]]. cbn [bind].
      assert (O : prod ins <= offset ins c').
      { apply (offset_beyond ins c' d2); [lia|lia|nia|].
        intros m Hml. rewrite Hm, B3 by lia. lia. }
      unfold rd at 1. rewrite (proj2 (nth_error_None src0 _)) by lia. reflexivity.
Qed.
End corr.
