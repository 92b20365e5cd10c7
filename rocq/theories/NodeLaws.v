(** What the fit and cross_corr2d nodes compute (C08, C48), and division of the constant zero (C25). *)
From Coq Require Import NArith Lia.
From Verif Require Import Common ShapeModel ShapeSpec ShapeProofs FitModel FitProofs TransformModel TransformSpec TransformProofs ElemModel ElemProofs CseModel TransformLaws ConvModel ConvLaws.

(** The node made by fit has the shape of its second argument; where a coordinate exists in
    the first argument it has that argument's element, elsewhere zero. The second argument's
    elements do not matter. *)
Lemma C08_fit_node_lemma :
  forall (T : Type) (N : num T) (fresh : nat -> T) (use : bool) (of_nat : nat -> T) (ins watch : shape) (src other : list T),
    is_fully_defined ins = true -> is_fully_defined watch = true -> length src = n_elems ins ->
    exists d, sem N fresh use of_nat KFit [(ins, src); (watch, other)] = Ok (watch, d) /\ length d = n_elems watch /\
      forall c, in_bounds watch c ->
        (belongs ins c -> nth_error d (offset watch c) = nth_error src (offset ins c)) /\
        (~ belongs ins c -> nth_error d (offset watch c) = Some (n_zero N)).
Proof.
  intros T N fresh use of_nat ins watch src other Fi Fw L.
  destruct (C08_fit_operator_lemma T (n_zero N) ins watch src (map fresh (seq 0 (n_elems watch))) Fi Fw L) as (d & E & Ld & H); [now rewrite map_length, seq_length|].
  exists d. split; [|split; [rewrite Ld; now rewrite map_length, seq_length|exact H]].
  cbn [sem]. apply forward_fresh; [reflexivity|exact Fw|]. cbn [map fst snd rd nth_error bind]. exact E.
Qed.

(** Dividing a number by the constant zero throws. *)
Lemma C25_div_by_constant_zero_lemma :
  forall (T : Type) (N : num T) (fresh : nat -> T) (c z : T) (s : shape),
    n_eqb N (n_zero N) z = true -> build_unary N fresh (UDivL c) (NConst (s, [z])) = Throw.
Proof. intros T N fresh c z s H. cbn. unfold const_is. cbn. now rewrite H. Qed.

(** The node made by cross_corr2d, the filter smaller than the image: an output dimension of
    zero throws, and otherwise the operation leaves the buffers. *)
Lemma C48_cross_corr_node_refuted_lemma :
  forall (T : Type) (N : num T) (fresh : nat -> T) (use : bool) (of_nat : nat -> T) (d1 d2 : nat) (img filt : shape) (i1 i2 f1 f2 : nat) (a b : list T),
    is_fully_defined img = true -> is_fully_defined filt = true -> d1 < d2 ->
    nth_error img d1 = Some i1 -> nth_error img d2 = Some i2 -> nth_error filt d1 = Some f1 -> nth_error filt d2 = Some f2 ->
    f1 + 1 <= i1 -> f2 + 1 <= i2 -> (N.of_nat i1 < 2 ^ 64)%N -> (N.of_nat i2 < 2 ^ 64)%N -> length a = n_elems img ->
    sem N fresh use of_nat (KCorr d1 d2) [(img, a); (filt, b)] = (if (i1 =? f1 + 1) || (i2 =? f2 + 1) then Throw else UB).
Proof.
  intros T N fresh use of_nat d1 d2 img filt i1 i2 f1 f2 a b Fi Ff Hd H1 H2 H3 H4 L1 L2 B1 B2 La. assert (Hne : d1 <> d2) by lia.
  pose proof Fi as Pi. apply is_fully_defined_iff in Pi. destruct Pi as [Ni Pi]. pose proof Ff as Pf. apply is_fully_defined_iff in Pf. destruct Pf as [_ Pf].
  assert (P1 : 0 < f1) by (rewrite Forall_forall in Pf; apply Pf; eapply nth_error_In; exact H3).
  assert (P2 : 0 < f2) by (rewrite Forall_forall in Pf; apply Pf; eapply nth_error_In; exact H4).
  pose proof (nth_error_lt _ _ _ H1) as K1. pose proof (nth_error_lt _ _ _ H2) as K2.
  pose proof (corr_shaper_ok d1 d2 img filt i1 i2 f1 f2 Hne H1 H2 H3 H4 L1 L2 B1 B2) as S.
  cbn [sem]. unfold forward_pass. cbn [map fst snd].
  set (outs := set_nth d2 (i2 - f2 - 1) (set_nth d1 (i1 - f1 - 1) img)) in *.
  set (K := fun s : shape => if is_fully_defined s then d <- corr_forward N d1 d2 s [img; filt] [a; b] (map fresh (seq 0 (n_elems s))) ;; Ok (s, d) else Throw).
  transitivity (bind (corr_shaper d1 d2 [img; filt]) K); [reflexivity|].
  transitivity (bind (Ok outs) K); [f_equal; exact S|]. cbn [bind]. unfold K.
  assert (Lo : length outs = length img) by (unfold outs; now rewrite !length_set_nth).
  assert (N2 : nth d2 outs 0 = i2 - f2 - 1) by (unfold outs; rewrite nth_set_nth, length_set_nth, Nat.eqb_refl; destruct (Nat.ltb_spec d2 (length img)); [reflexivity|lia]).
  assert (N1 : nth d1 outs 0 = i1 - f1 - 1).
  { unfold outs. rewrite nth_set_nth. destruct (Nat.eqb_spec d2 d1); [lia|]. cbn [andb]. rewrite nth_set_nth, Nat.eqb_refl. destruct (Nat.ltb_spec d1 (length img)); [reflexivity|lia]. }
  destruct (is_fully_defined outs) eqn:D.
  - apply is_fully_defined_iff in D. destruct D as [_ D]. rewrite Forall_forall in D.
    assert (Q1 : 0 < nth d1 outs 0) by (apply D, nth_In; lia). assert (Q2 : 0 < nth d2 outs 0) by (apply D, nth_In; lia).
    destruct (Nat.eqb_spec i1 (f1 + 1)); [lia|]. destruct (Nat.eqb_spec i2 (f2 + 1)); [lia|]. cbn [orb].
    unfold corr_forward. cbn [rd nth_error bind].
    rewrite (C48_cross_corr_always_out_of_bounds_refuted_lemma T (n_zero N) (n_add N) (n_mul N) d1 d2 img i1 i2 f1 f2 a b _ Fi Hd H1 H2); auto; lia.
  - destruct (Nat.eqb_spec i1 (f1 + 1)); [reflexivity|]. destruct (Nat.eqb_spec i2 (f2 + 1)); [now rewrite Bool.orb_true_r|]. exfalso.
    assert (D' : is_fully_defined outs = true); [|congruence].
    apply is_fully_defined_iff. split; [intros E; rewrite E in Lo; destruct img; [contradiction|discriminate]|].
    rewrite Forall_forall in *. intros x Hx. apply (In_nth _ _ 0) in Hx. destruct Hx as (k & Hk & <-).
    destruct (Nat.eq_dec k d1) as [->|Hk1]; [lia|]. destruct (Nat.eq_dec k d2) as [->|Hk2]; [lia|].
    unfold outs. rewrite !nth_set_nth. destruct (Nat.eqb_spec d2 k); [lia|]. destruct (Nat.eqb_spec d1 k); [lia|]. cbn [andb]. apply Pi, nth_In. lia.
Qed.

(** fit of a 2x2 tensor to 3x1, and a 4x4 image with a 3x2 and a 2x2 filter *)
Lemma C08_node_nonvacuous_lemma :
  let N := {| n_zero := 0; n_one := 1; n_two := 2; n_add := Nat.add; n_sub := Nat.sub; n_mul := Nat.mul; n_div := Nat.div; n_neg := fun x => x; n_abs := fun x => x;
     n_sin := fun x => x; n_cos := fun x => x; n_tan := fun x => x; n_exp := fun x => x; n_sqrt := Nat.sqrt; n_round := fun x => x; n_log := fun x => x; n_pow := Nat.pow;
     n_eqb := Nat.eqb; n_ltb := Nat.ltb |} in
  let run op ts := sem N (fun n => n) false (fun n => n) op ts in
  run KFit [([2; 2], [5; 6; 7; 8]); ([3; 1], [1; 1; 1])] = Ok ([3; 1], [5; 6; 0]) /\
  run (KCorr 0 1) [([4; 4], repeat 1 16); ([3; 2], repeat 1 6)] = Throw /\
  run (KCorr 0 1) [([4; 4], repeat 1 16); ([2; 2], repeat 1 4)] = UB /\
  build_unary N (fun n => n) (UDivL 3) (NConst ([1], [0])) = Throw.
Proof. repeat split. Qed.
