(** Property lemmas about sigmoid, tanh and softmax (C39). *)
From Coq Require Import Reals ZArith Lra.
From Verif Require Import Common ShapeModel ShapeSpec ShapeProofs TransformSpec TransformModel TransformProofs TransformLaws ElemSpec ElemModel NumSpec ElemProofs RealNum ElemLaws FutilsModel.
Local Open Scope R_scope.

Definition exact (r : res (tens R)) (s : shape) (l : list R) : Prop :=
  exists t, r = Ok t /\ wf t /\ (fst t = s \/ n_elems s = 1%nat) /\ snd t = l.

Section Ex.
Context (fresh : nat -> R).

Lemma exact_fold op a : wf (value Rnum a) -> op <> UAbs ->
  exact (fold_or_node Rnum fresh op a) (fst (value Rnum a)) (map (meaning Rnum op) (snd (value Rnum a))).
Proof.
  intros W H. unfold fold_or_node. destruct a as [t|t|t].
  - cbn [value] in *. eexists. split; [reflexivity|]. split; [now apply wf_map|]. split; [now left|]. cbn [snd].
    apply map_ext. intros x. now apply const_fwd_lambda.
  - rewrite unary_ok by auto. eexists. split; [reflexivity|]. destruct W as [W1 W2].
    split; [split; [now apply ushape_def|cbn [fst snd]; rewrite map_length, ushape_n; auto]|]. cbn [fst snd].
    split; [unfold ushape; destruct (Nat.eqb_spec (n_elems (fst (value Rnum (NNeg t)))) 1); auto|].
    apply map_ext. intros x. apply fwd_lambda_meaning.
  - rewrite unary_ok by auto. eexists. split; [reflexivity|]. destruct W as [W1 W2].
    split; [split; [now apply ushape_def|cbn [fst snd]; rewrite map_length, ushape_n; auto]|]. cbn [fst snd].
    split; [unfold ushape; destruct (Nat.eqb_spec (n_elems (fst (value Rnum (NOther t)))) 1); auto|].
    apply map_ext. intros x. apply fwd_lambda_meaning.
Qed.

Lemma Reqb_neq x y : x <> y -> Reqb x y = false.
Proof. intros H. destruct (Reqb x y) eqn:E; auto. apply Reqb_iff in E. congruence. Qed.

Lemma exact_scalar v (s : shape) l : length l = n_elems s -> l = [v] -> exact (Ok (const_scalar v)) s l.
Proof.
  intros E ->. exists (const_scalar v). split; auto. split; [split; reflexivity|]. split; [|reflexivity]. right. now cbn in *.
Qed.

(** the builders used, with the scalars used *)
Definition used (op : @uop R) : Prop := op = UNeg \/ op = UExp \/ op = UAddL 1 \/ op = UDivL 1 \/ op = UMulL 2 \/ op = USubR 1 \/ op = UAddR 1.

Lemma exact_unary op a : wf (value Rnum a) -> used op -> divisors_ok Rnum op (snd (value Rnum a)) ->
  exact (build_unary Rnum fresh op a) (fst (value Rnum a)) (map (meaning Rnum op) (snd (value Rnum a))).
Proof.
  intros W U D.
  assert (F : op <> UAbs -> exact (fold_or_node Rnum fresh op a) (fst (value Rnum a)) (map (meaning Rnum op) (snd (value Rnum a))))
    by (intros; now apply exact_fold).
  destruct U as [->|[->|[->|[->|[->|[->| ->]]]]]]; unfold build_unary.
  - destruct a as [t|t|t]; try (apply F; discriminate). cbn [value fst snd] in *. rewrite map_map, map_id_on by (intros x _; cbn; lra).
    exists t. split; auto. destruct W as [W1 W2]. cbn [fst snd] in W2. rewrite map_length in W2. split; [split; auto|]. split; auto.
  - apply F. discriminate.
  - cbn [n_eqb n_zero Rnum]. rewrite Reqb_neq by lra. destruct (is_const a && _) eqn:E; [|apply F; discriminate].
    apply andb_true_iff in E. destruct E as [_ E]. apply (const_is_true Rnum Rnum_laws) in E. destruct W as [_ W].
    apply exact_scalar; [now rewrite map_length|]. rewrite E. cbn. f_equal. lra.
  - cbn [n_eqb n_zero n_one Rnum]. destruct (is_const a) eqn:C.
    + destruct (const_is Rnum (value Rnum a) 0) eqn:E.
      { apply (const_is_true Rnum Rnum_laws) in E. cbn [divisors_ok] in D. rewrite E in D. inversion D; subst. cbn in *. congruence. }
      destruct (const_is Rnum (value Rnum a) 1) eqn:E2; [|apply F; discriminate].
      apply (const_is_true Rnum Rnum_laws) in E2. destruct W as [_ W]. apply exact_scalar; [now rewrite map_length|]. rewrite E2. cbn. f_equal. lra.
    + rewrite Reqb_neq by lra. apply F. discriminate.
  - cbn [n_eqb n_zero n_one n_neg Rnum]. rewrite !Reqb_neq by lra. destruct (is_const a) eqn:C; [|apply F; discriminate].
    rewrite orb_false_r. destruct W as [W1 W].
    destruct (const_is Rnum (value Rnum a) 0) eqn:E.
    { apply (const_is_true Rnum Rnum_laws) in E. apply exact_scalar; [now rewrite map_length|]. rewrite E. cbn. f_equal. lra. }
    destruct (const_is Rnum (value Rnum a) 1) eqn:E2; [|apply F; discriminate].
    apply (const_is_true Rnum Rnum_laws) in E2. apply exact_scalar; [now rewrite map_length|]. rewrite E2. cbn. f_equal. lra.
  - cbn [n_eqb n_zero n_one n_neg Rnum]. rewrite !Reqb_neq by lra. destruct (is_const a) eqn:C; [|apply F; discriminate].
    destruct (const_is Rnum (value Rnum a) 0) eqn:E; [|apply F; discriminate].
    apply (const_is_true Rnum Rnum_laws) in E. destruct W as [W1 W]. apply exact_scalar; [now rewrite map_length|]. rewrite E. cbn. f_equal. lra.
  - cbn [n_eqb n_zero n_one n_neg Rnum]. rewrite !Reqb_neq by lra. destruct (is_const a) eqn:C; [|apply F; discriminate].
    destruct (const_is Rnum (value Rnum a) 0) eqn:E; [|apply F; discriminate].
    apply (const_is_true Rnum Rnum_laws) in E. destruct W as [W1 W]. apply exact_scalar; [now rewrite map_length|]. rewrite E. cbn. f_equal. lra.
Qed.

Lemma value_returned (a : @node R) t : value Rnum (returned a t) = t.
Proof. unfold returned. now destruct (is_const a). Qed.
Lemma is_const_returned (a : @node R) t : is_const (returned a t) = is_const a.
Proof. unfold returned. destruct (is_const a) eqn:E; auto. Qed.

(** a division of a tensor by one of the same size or by a one-element node *)
Lemma exact_div a b : wf (value Rnum a) -> wf (value Rnum b) ->
  n_elems (fst (value Rnum a)) = n_elems (fst (value Rnum b)) /\ (fst (value Rnum a) = fst (value Rnum b) \/ n_elems (fst (value Rnum a)) = 1%nat)
    \/ n_elems (fst (value Rnum b)) = 1%nat /\ is_const b = false ->
  Forall (fun x => x <> 0) (snd (value Rnum b)) ->
  let n := length (snd (value Rnum a)) in
  exact (binary_op Rnum fresh BDiv false a b) (fst (value Rnum a)) (map2 Rdiv (snd (value Rnum a)) (broadcast n (snd (value Rnum b)))).
Proof.
  intros Wa Wb HL HD n.
  pose proof (wf_pos _ Wa) as Pa. pose proof (wf_pos _ Wb) as Pb. pose proof (proj2 Wa) as La. pose proof (proj2 Wb) as Lb.
  assert (Hn : Nat.max (length (snd (value Rnum a))) (length (snd (value Rnum b))) = n) by (unfold n; lia).
  destruct (Nat.eq_dec n 1) as [N1|N1].
  - destruct (binary_op_ok Rnum Rnum_laws fresh BDiv false a b) as [t [E1 [E2 E3]]]; auto; try discriminate; [unfold n in N1; left; congruence|].
    rewrite Hn in E3. exists t. split; auto. split; auto.
    assert (B : forall l : list R, length l = n -> broadcast n l = l) by (intros; now apply broadcast_id).
    rewrite (B (snd (value Rnum a))) in E3 by reflexivity.
    change (bmeaning Rnum BDiv) with Rdiv in E3.
    assert (Lr : length (map2 Rdiv (snd (value Rnum a)) (broadcast n (snd (value Rnum b)))) = 1%nat).
    { rewrite N1. unfold n in N1. assert (Lb1 : length (snd (value Rnum b)) = 1%nat) by lia. destruct (snd (value Rnum a)) as [|x [|]]; try discriminate. destruct (snd (value Rnum b)) as [|y [|]]; try discriminate. reflexivity. }
    rewrite <- E3 in Lr. assert (Lt : length (snd t) = 1%nat).
    { destruct (snd t) as [|x [|]]; cbn in *; auto. }
    split; [right; unfold n in N1; congruence|]. rewrite <- E3. symmetry. apply broadcast_id. congruence.
  - assert (E0 : binary_op Rnum fresh BDiv false a b = forward_pass fresh elementary_shaper (binary_elem Rdiv) [value Rnum a; value Rnum b] None).
    { unfold binary_op, build_binary.
      assert (Ca : forall v, const_is Rnum (value Rnum a) v = false).
      { intros v. unfold const_is. destruct (snd (value Rnum a)) as [|x [|]] eqn:E; auto. unfold n in N1. cbn in N1. lia. }
      assert (Oa : one_elem (value Rnum a) = false) by (apply Nat.eqb_neq; unfold n in N1; lia).
      rewrite Ca, Oa, !andb_false_r. destruct HL as [[HL _]|[HL Cb]].
      - assert (Cb : forall v, const_is Rnum (value Rnum b) v = false).
        { intros v. unfold const_is. destruct (snd (value Rnum b)) as [|x [|]] eqn:E; auto. unfold n in N1. cbn in *. lia. }
        assert (Ob : one_elem (value Rnum b) = false) by (apply Nat.eqb_neq; unfold n in N1; lia).
        now rewrite Cb, Ob, !andb_false_r.
      - now rewrite Cb. }
    rewrite E0. destruct (value Rnum a) as [sa la] eqn:Ea. destruct (value Rnum b) as [sb lb] eqn:Eb. cbn [fst snd] in *.
    destruct (C23_binary_pointwise_lemma R fresh Rdiv sa sb la lb) as [d [E1 [E2 [E3 E4]]]]; try apply Wa; try apply Wb; [destruct HL as [[_ [HL|HL]]|[HL _]]; [right; right; now left|left; congruence|right; left; congruence]|].
    cbn zeta in *. set (outs := if (length lb =? 1)%nat then if (length la =? 1)%nat then [1%nat] else sa else sb) in *.
    exists (outs, d). split; [apply E1; now left|].
    assert (Eo : outs = sa).
    { unfold outs. destruct HL as [[HL [->|HL2]]|[HL _]]; [|unfold n in N1; lia|].
      - destruct (length lb =? 1)%nat; auto. destruct (Nat.eqb_spec (length la) 1); [unfold n in N1; lia|reflexivity].
      - rewrite Lb, HL. cbn. destruct (Nat.eqb_spec (length la) 1); [unfold n in N1; lia|reflexivity]. }
    rewrite Eo in *. split; [split; [apply Wa|exact E2]|]. split; [now left|]. cbn [snd].
    assert (Lb' : length (broadcast n lb) = n).
    { destruct lb as [|y [|z lb']]; [cbn in *; lia|cbn; apply repeat_length|]. cbn [broadcast]. unfold n. destruct HL as [[HL _]|[HL _]]; [|cbn in Lb; lia]. congruence. }
    assert (Lm : length (map2 Rdiv la (broadcast n lb)) = n).
    { clear - Lb'. revert Lb'. generalize (broadcast n lb). subst n. induction la as [|x la IH]; intros [|y l] H; try discriminate; auto. cbn in *. f_equal. apply IH. congruence. }
    assert (Ld : length d = n) by (rewrite E2; unfold n; congruence).
    apply nth_error_ext_lt; [congruence|]. rewrite Ld.
    intros i Hi. destruct (E4 i) as (x & y & X1 & X2 & X3); [unfold n in Hi; lia|]. rewrite X3. symmetry.
      destruct (Nat.eqb_spec (length la) 1); [unfold n in N1; lia|].
      assert (X2' : nth_error (broadcast n lb) i = Some y).
      { destruct lb as [|y0 [|z lb']]; [cbn in Pb; lia| |].
        - cbn in X2. injection X2 as ->. cbn. apply nth_error_repeat. exact Hi.
        - cbn [length Nat.eqb] in X2. exact X2. }
      clear - X1 X2'. revert i X1 X2'. generalize (broadcast n lb). subst n. induction la as [|a0 la IH]; intros [|b0 l] [|i] H1 H2; try discriminate; cbn in *; [congruence|]. now apply IH.
Qed.
End Ex.


Lemma exact_step fresh op a t : wf t -> used op -> divisors_ok Rnum op (snd t) ->
  exists t', build_unary Rnum fresh op (returned a t) = Ok t' /\ wf t' /\ n_elems (fst t') = n_elems (fst t) /\
    (n_elems (fst t) <> 1%nat -> fst t' = fst t) /\ snd t' = map (meaning Rnum op) (snd t).
Proof.
  intros W U D. pose proof (exact_unary fresh op (returned a t)) as H. rewrite value_returned in H. destruct (H W U D) as (t' & E1 & E2 & E3 & E4).
  exists t'. split; [exact E1|]. split; [exact E2|]. split.
  - destruct E2 as [_ E2]. destruct W as [_ W]. rewrite <- E2, E4, map_length. exact W.
  - split; [|exact E4]. intros H1. now destruct E3.
Qed.
Lemma exact_first fresh op x : wf (value Rnum x) -> used op -> divisors_ok Rnum op (snd (value Rnum x)) ->
  exists t', build_unary Rnum fresh op x = Ok t' /\ wf t' /\ n_elems (fst t') = n_elems (fst (value Rnum x)) /\
    (n_elems (fst (value Rnum x)) <> 1%nat -> fst t' = fst (value Rnum x)) /\ snd t' = map (meaning Rnum op) (snd (value Rnum x)).
Proof.
  intros W U D. destruct (exact_unary fresh op x W U D) as (t' & E1 & E2 & E3 & E4).
  exists t'. split; [exact E1|]. split; [exact E2|]. split.
  - destruct E2 as [_ E2]. destruct W as [_ W]. rewrite <- E2, E4, map_length. exact W.
  - split; [|exact E4]. intros H1. now destruct E3.
Qed.

Lemma sigmoid_eq fresh x : wf (value Rnum x) ->
  exists s d, sigmoid Rnum fresh x = Ok (s, d) /\ n_elems s = n_elems (fst (value Rnum x)) /\ (n_elems (fst (value Rnum x)) <> 1%nat -> s = fst (value Rnum x)) /\
    d = map (fun v => 1 / (1 + exp (- v))) (snd (value Rnum x)).
Proof.
  intros W. unfold sigmoid.
  destruct (exact_first fresh UNeg x) as (t1 & E1 & W1 & N1 & S1 & D1); [auto|unfold used; tauto|exact I|]. rewrite E1. cbn [bind].
  destruct (exact_step fresh UExp x t1) as (t2 & E2 & W2 & N2 & S2 & D2); [auto|unfold used; tauto|exact I|]. rewrite E2. cbn [bind].
  destruct (exact_step fresh (UAddL 1) x t2) as (t3 & E3 & W3 & N3 & S3 & D3); [auto|unfold used; tauto|exact I|]. cbn [n_one Rnum]. rewrite E3. cbn [bind].
  assert (D : snd t3 = map (fun v => 1 + exp (- v)) (snd (value Rnum x))) by (rewrite D3, D2, D1, !map_map; reflexivity).
  destruct (exact_step fresh (UDivL 1) x t3) as (t4 & E4 & W4 & N4 & S4 & D4); [auto|unfold used; tauto| |].
  { cbn. rewrite D. apply Forall_forall. intros z Hz. apply in_map_iff in Hz. destruct Hz as (v & <- & _). pose proof (exp_pos (- v)). lra. }
  rewrite E4. destruct t4 as [s d]. cbn [fst snd] in *. exists s, d. split; [reflexivity|]. split; [congruence|]. split.
  - intros H. rewrite S4, S3, S2, S1 by congruence. reflexivity.
  - rewrite D4, D, map_map. reflexivity.
Qed.

Lemma map2_same {A} (f g : A -> R) (h : R -> R -> R) l : map2 h (map f l) (map g l) = map (fun v => h (f v) (g v)) l.
Proof. induction l; cbn; congruence. Qed.

Lemma tanh_formula v : (exp (2 * v) - 1) / (exp (2 * v) + 1) = (exp v - exp (- v)) / (exp v + exp (- v)).
Proof.
  pose proof (exp_pos v). pose proof (exp_pos (- v)).
  assert (E : exp (2 * v) = exp v * exp v) by (rewrite <- exp_plus; f_equal; lra).
  assert (E' : exp v * exp (- v) = 1) by (rewrite <- exp_plus; rewrite <- exp_0; f_equal; lra).
  rewrite E. replace (exp v * exp v - 1) with (exp v * (exp v - exp (- v))) by (rewrite <- E'; ring).
  replace (exp v * exp v + 1) with (exp v * (exp v + exp (- v))) by (rewrite <- E'; ring). field. split; lra.
Qed.

Lemma tanh_eq fresh x : wf (value Rnum x) ->
  exists s d, tanh Rnum fresh x = Ok (s, d) /\ n_elems s = n_elems (fst (value Rnum x)) /\ (n_elems (fst (value Rnum x)) <> 1%nat -> s = fst (value Rnum x)) /\
    d = map (fun v => (exp v - exp (- v)) / (exp v + exp (- v))) (snd (value Rnum x)).
Proof.
  intros W. unfold tanh. cbn [n_one n_two Rnum].
  destruct (exact_first fresh (UMulL 2) x) as (t1 & E1 & W1 & N1 & S1 & D1); [auto|unfold used; tauto|exact I|]. rewrite E1. cbn [bind].
  destruct (exact_step fresh UExp x t1) as (t2 & E2 & W2 & N2 & S2 & D2); [auto|unfold used; tauto|exact I|]. rewrite E2. cbn [bind].
  destruct (exact_step fresh (USubR 1) x t2) as (t3 & E3 & W3 & N3 & S3 & D3); [auto|unfold used; tauto|exact I|]. rewrite E3. cbn [bind].
  destruct (exact_step fresh (UAddR 1) x t2) as (t4 & E4 & W4 & N4 & S4 & D4); [auto|unfold used; tauto|exact I|]. rewrite E4. cbn [bind].
  assert (F3 : snd t3 = map (fun v => exp (2 * v) - 1) (snd (value Rnum x))) by (rewrite D3, D2, D1, !map_map; reflexivity).
  assert (F4 : snd t4 = map (fun v => exp (2 * v) + 1) (snd (value Rnum x))) by (rewrite D4, D2, D1, !map_map; reflexivity).
  destruct (exact_div fresh (returned x t3) (returned x t4)) as (t5 & E5 & W5 & S5 & D5); rewrite ?value_returned; auto.
  - left. split; [congruence|]. destruct (Nat.eq_dec (n_elems (fst t3)) 1); [now right|]. left. rewrite S3, S4 by congruence. reflexivity.
  - rewrite F4. apply Forall_forall. intros z Hz. apply in_map_iff in Hz. destruct Hz as (v & <- & _). pose proof (exp_pos (2 * v)). lra.
  - rewrite !value_returned in *. destruct t5 as [s d]. exists s, d. split; [exact E5|]. cbn [fst snd] in *.
    rewrite broadcast_id in D5 by (rewrite F3, F4, !map_length; reflexivity). rewrite F3, F4, map2_same in D5.
    assert (D : d = map (fun v => (exp v - exp (- v)) / (exp v + exp (- v))) (snd (value Rnum x))) by (rewrite D5; apply map_ext, tanh_formula).
    split; [|split; [|exact D]].
    + destruct W5 as [_ W5]. destruct W as [_ W]. cbn [fst snd] in W5. rewrite <- W5, D, map_length. exact W.
    + intros H. destruct S5 as [S5|S5]; [|congruence]. rewrite S5, S3, S2, S1 by congruence. reflexivity.
Qed.

Definition Rsum (l : list R) : R := fold_right Rplus 0 l.

Lemma fold_left_Rsum l a : fold_left Rplus l a = a + Rsum l.
Proof. revert a. induction l as [|x l IH]; intros a; cbn; [unfold Rsum; cbn; lra|]. rewrite IH. unfold Rsum. cbn. lra. Qed.
Lemma Rsum_pos l : l <> [] -> (forall x, In x l -> 0 < x) -> 0 < Rsum l.
Proof.
  intros H P. destruct l as [|x l]; [congruence|]. cbn. assert (0 <= Rsum l).
  { assert (P' : forall y, In y l -> 0 < y) by (intros; apply P; now right). clear - P'. induction l as [|y l IH]; cbn; [unfold Rsum; cbn; lra|]. specialize (IH (fun z Hz => P' z (or_intror Hz))). pose proof (P' y (or_introl eq_refl)). unfold Rsum in *. lra. }
  pose proof (P x (or_introl eq_refl)). unfold Rsum in *. lra.
Qed.
Lemma Rsum_div l c : Rsum (map (fun x => x / c) l) = Rsum l / c.
Proof. unfold Rsum. induction l as [|x l IH]; cbn; [lra|]. rewrite IH. lra. Qed.
Lemma Rsum_app l l' : Rsum (l ++ l') = Rsum l + Rsum l'.
Proof. unfold Rsum. induction l as [|x l IH]; cbn; [lra|]. rewrite IH. lra. Qed.

Lemma softmax_eq fresh x : wf (value Rnum x) ->
  exists s d, softmax Rnum fresh x = Ok (s, d) /\ n_elems s = n_elems (fst (value Rnum x)) /\ (n_elems (fst (value Rnum x)) <> 1%nat -> s = fst (value Rnum x)) /\
    d = map (fun v => exp v / Rsum (map exp (snd (value Rnum x)))) (snd (value Rnum x)).
Proof.
  intros W. unfold softmax.
  destruct (exact_first fresh UExp x) as (t1 & E1 & W1 & N1 & S1 & D1); [auto|unfold used; tauto|exact I|]. rewrite E1. cbn [bind].
  change (meaning Rnum UExp) with exp in D1.
  assert (E2 : reduce_sum_all Rnum fresh (returned x t1) = Ok ([1%nat], [Rsum (map exp (snd (value Rnum x)))])).
  { unfold reduce_sum_all. rewrite value_returned. apply forward_fresh; [reflexivity|reflexivity|]. cbn [map rd nth_error bind].
    rewrite (C18_compress_all_lemma R (n_add Rnum) 0 (fst t1) (snd t1)); [|apply W1|apply W1|reflexivity]. do 2 f_equal. cbn [n_add Rnum].
    rewrite D1. destruct (map exp (snd (value Rnum x))) as [|z l] eqn:E; [reflexivity|]. cbn [fold1]. rewrite fold_left_Rsum. reflexivity. }
  rewrite E2. cbn [bind]. set (S := Rsum (map exp (snd (value Rnum x)))) in *.
  assert (PS : 0 < S).
  { apply Rsum_pos; [|intros z Hz; apply in_map_iff in Hz; destruct Hz as (v & <- & _); apply exp_pos].
    pose proof (wf_pos _ W). destruct (snd (value Rnum x)); cbn in *; [lia|discriminate]. }
  destruct (exact_div fresh (returned x t1) (NOther ([1%nat], [S]))) as (t5 & E5 & W5 & S5 & D5); rewrite ?value_returned; auto.
  - split; reflexivity.
  - cbn. constructor; [lra|constructor].
  - rewrite !value_returned in *. destruct t5 as [s d]. exists s, d. split; [exact E5|]. cbn [fst snd value] in *. rewrite D1 in D5.
    assert (D : d = map (fun v => exp v / S) (snd (value Rnum x))).
    { rewrite D5. cbn [broadcast]. clear. generalize S as c. induction (snd (value Rnum x)) as [|v l IH]; intros c; cbn; [reflexivity|]. f_equal. apply IH. }
    split; [|split; [|exact D]].
    + destruct W5 as [_ W5]. destruct W as [_ W]. cbn [fst snd] in W5. rewrite <- W5, D, map_length. exact W.
    + intros H. destruct S5 as [S5|S5]; [|congruence]. rewrite S5, S1 by congruence. reflexivity.
Qed.

(** sigmoid of any tensor (constant or not): one result element 1/(1+e^-v) per element v, all
    strictly between zero and one; the shape is kept (one-element shapes may become [1]). *)
Lemma C39_sigmoid_lemma :
  forall (fresh : nat -> R) (x : node) (s : shape) (data : list R),
    value Rnum x = (s, data) -> is_fully_defined s = true -> length data = n_elems s ->
    exists s' d, sigmoid Rnum fresh x = Ok (s', d) /\ n_elems s' = n_elems s /\ (n_elems s <> 1%nat -> s' = s) /\ length d = length data /\
      forall i v, nth_error data i = Some v -> exists y, nth_error d i = Some y /\ y = 1 / (1 + exp (- v)) /\ 0 < y < 1.
Proof.
  intros fresh x s data E F L. destruct (sigmoid_eq fresh x) as (s' & d & E1 & E2 & E3 & E4); [rewrite E; split; auto|].
  rewrite E in *. cbn [fst snd] in *. exists s', d. split; [exact E1|]. split; [exact E2|]. split; [exact E3|]. split; [rewrite E4; apply map_length|].
  intros i v H. eexists. split; [rewrite E4, nth_error_map, H; reflexivity|]. split; [reflexivity|]. cbn. pose proof (exp_pos (- v)).
  split.
  - apply Rdiv_lt_0_compat; lra.
  - apply (Rmult_lt_reg_r (1 + exp (- v))); [lra|]. unfold Rdiv. rewrite Rmult_assoc, Rinv_l by lra. lra.
Qed.

(** sigmoid of the negated tensor is one minus sigmoid, and sigmoid preserves strict order *)
Lemma C39_sigmoid_symmetry_lemma :
  forall (fresh : nat -> R) (x x' : node) (s s' : shape) (data data' : list R) (r r' : tens R),
    value Rnum x = (s, data) -> is_fully_defined s = true -> length data = n_elems s ->
    value Rnum x' = (s', data') -> is_fully_defined s' = true -> length data' = n_elems s' ->
    sigmoid Rnum fresh x = Ok r -> sigmoid Rnum fresh x' = Ok r' ->
    (forall i v, nth_error data i = Some v -> nth_error data' i = Some (- v) ->
       exists y y', nth_error (snd r) i = Some y /\ nth_error (snd r') i = Some y' /\ y' = 1 - y) /\
    (forall i j v w, nth_error data i = Some v -> nth_error data' j = Some w -> v < w ->
       exists y y', nth_error (snd r) i = Some y /\ nth_error (snd r') j = Some y' /\ y < y').
Proof.
  intros fresh x x' s s' data data' r r' E F L E' F' L' H H'.
  destruct (sigmoid_eq fresh x) as (s1 & d & E1 & _ & _ & E4); [rewrite E; split; auto|].
  destruct (sigmoid_eq fresh x') as (s1' & d' & E1' & _ & _ & E4'); [rewrite E'; split; auto|].
  rewrite E, E' in *. rewrite H in E1. rewrite H' in E1'. injection E1 as ->. injection E1' as ->. cbn [fst snd] in *. rewrite E4, E4'. split.
  - intros i v Hv Hv'. do 2 eexists. rewrite !nth_error_map, Hv, Hv'. split; [reflexivity|]. split; [reflexivity|].
    pose proof (exp_pos v). pose proof (exp_pos (- v)). assert (E0 : exp (- v) = / exp v) by apply exp_Ropp. rewrite Ropp_involutive, E0. field. lra.
  - intros i j v w Hv Hw Hlt. do 2 eexists. rewrite !nth_error_map, Hv, Hw. split; [reflexivity|]. split; [reflexivity|].
    pose proof (exp_pos (- v)). pose proof (exp_pos (- w)). assert (exp (- w) < exp (- v)) by (apply exp_increasing; lra).
    unfold Rdiv. rewrite !Rmult_1_l. apply Rinv_lt_contravar; [apply Rmult_lt_0_compat|]; lra.
Qed.

(** tanh of any tensor: the hyperbolic tangent of each element, strictly between -1 and 1 *)
Lemma C39_tanh_lemma :
  forall (fresh : nat -> R) (x : node) (s : shape) (data : list R),
    value Rnum x = (s, data) -> is_fully_defined s = true -> length data = n_elems s ->
    exists s' d, tanh Rnum fresh x = Ok (s', d) /\ n_elems s' = n_elems s /\ (n_elems s <> 1%nat -> s' = s) /\ length d = length data /\
      forall i v, nth_error data i = Some v -> exists y, nth_error d i = Some y /\
        y = (exp v - exp (- v)) / (exp v + exp (- v)) /\ -1 < y < 1.
Proof.
  intros fresh x s data E F L. destruct (tanh_eq fresh x) as (s' & d & E1 & E2 & E3 & E4); [rewrite E; split; auto|].
  rewrite E in *. cbn [fst snd] in *. exists s', d. split; [exact E1|]. split; [exact E2|]. split; [exact E3|]. split; [rewrite E4; apply map_length|].
  intros i v H. eexists. split; [rewrite E4, nth_error_map, H; reflexivity|]. split; [reflexivity|]. cbn.
  pose proof (exp_pos v). pose proof (exp_pos (- v)). split.
  - apply (Rmult_lt_reg_r (exp v + exp (- v))); [lra|]. unfold Rdiv. rewrite Rmult_assoc, Rinv_l by lra. lra.
  - apply (Rmult_lt_reg_r (exp v + exp (- v))); [lra|]. unfold Rdiv. rewrite Rmult_assoc, Rinv_l by lra. lra.
Qed.

(** softmax of any tensor: each element is e^v over the sum of e^w over the whole tensor, is
    positive, and all of them together sum to one *)
Lemma C39_softmax_lemma :
  forall (fresh : nat -> R) (x : node) (s : shape) (data : list R),
    value Rnum x = (s, data) -> is_fully_defined s = true -> length data = n_elems s ->
    exists s' d, softmax Rnum fresh x = Ok (s', d) /\ n_elems s' = n_elems s /\ (n_elems s <> 1%nat -> s' = s) /\ length d = length data /\
      (forall i v, nth_error data i = Some v -> exists y, nth_error d i = Some y /\
        y = exp v / fold_right Rplus 0 (map exp data) /\ 0 < y) /\
      fold_right Rplus 0 d = 1.
Proof.
  intros fresh x s data E F L. destruct (softmax_eq fresh x) as (s' & d & E1 & E2 & E3 & E4); [rewrite E; split; auto|].
  rewrite E in *. cbn [fst snd] in *. exists s', d. split; [exact E1|]. split; [exact E2|]. split; [exact E3|]. split; [rewrite E4; apply map_length|].
  assert (PS : 0 < Rsum (map exp data)).
  { apply Rsum_pos; [|intros z Hz; apply in_map_iff in Hz; destruct Hz as (v & <- & _); apply exp_pos].
    pose proof (wf_pos (s, data) (conj F L)). destruct data; cbn in *; [lia|discriminate]. }
  split.
  - intros i v H. eexists. split; [rewrite E4, nth_error_map, H; reflexivity|]. split; [reflexivity|]. apply Rdiv_lt_0_compat; [apply exp_pos|exact PS].
  - change (Rsum d = 1). rewrite E4. rewrite <- (map_map exp (fun y => y / Rsum (map exp data))), Rsum_div. unfold Rdiv. apply Rinv_r. lra.
Qed.

(** Finding: the sum runs over the whole tensor, so for a batch (shape [n; m] with m > 1, one
    sample per column, stored column after column) no single sample's entries sum to one:
    every proper part of the result sums to less. *)
Lemma C39_softmax_batch_refuted_lemma :
  forall (fresh : nat -> R) (x : node) (n m : nat) (data : list R),
    value Rnum x = ([n; m], data) -> (0 < n)%nat -> (1 < m)%nat -> length data = (n * m)%nat ->
    exists d, softmax Rnum fresh x = Ok ([n; m], d) /\ length d = (n * m)%nat /\
      forall c, (c < m)%nat -> fold_right Rplus 0 (firstn n (skipn (c * n) d)) < 1.
Proof.
  intros fresh x n m data E Hn Hm L.
  assert (Nm : n_elems [n; m] = (n * m)%nat) by (cbn; nia).
  assert (F : is_fully_defined [n; m] = true) by (cbn; destruct n; [lia|]; destruct m; [lia|]; reflexivity).
  destruct (C39_softmax_lemma fresh x [n; m] data E F) as (s' & d & E1 & E2 & E3 & E4 & E5 & E6); [congruence|].
  rewrite (E3 ltac:(rewrite Nm; nia)) in E1. exists d. split; [exact E1|]. split; [congruence|]. intros c Hc.
  change (Rsum d = 1) in E6. change (Rsum (firstn n (skipn (c * n) d)) < 1).
  assert (Pd : forall y, In y d -> 0 < y).
  { intros y Hy. apply In_nth_error in Hy. destruct Hy as [i Hi]. assert (Li : (i < length data)%nat) by (rewrite <- E4; apply nth_error_Some; congruence).
    destruct (nth_error data i) as [v|] eqn:Ev; [|apply nth_error_None in Ev; lia]. destruct (E5 i v Ev) as (y' & Y1 & _ & Y2). congruence. }
  pose proof (firstn_skipn (c * n) d) as S1. pose proof (firstn_skipn n (skipn (c * n) d)) as S2.
  rewrite <- S1, Rsum_app, <- S2, Rsum_app in E6.
  assert (P1 : forall l, (forall y, In y l -> In y d) -> 0 <= Rsum l).
  { intros l Hl. destruct l as [|z l]; [unfold Rsum; cbn; lra|]. apply Rlt_le, Rsum_pos; [discriminate|]. intros; apply Pd, Hl; auto. }
  assert (Ia : forall y, In y (firstn (c * n) d) -> In y d) by (intros y Hy; rewrite <- S1; apply in_or_app; now left).
  assert (Ib : forall y, In y (skipn n (skipn (c * n) d)) -> In y d).
  { intros y Hy. rewrite <- S1. apply in_or_app. right. rewrite <- S2. apply in_or_app. now right. }
  pose proof (P1 _ Ia). pose proof (P1 _ Ib).
  assert (0 < Rsum (firstn (c * n) d) + Rsum (skipn n (skipn (c * n) d))); [|lra].
  destruct (Nat.eq_dec c 0) as [->|C0].
  - assert (0 < Rsum (skipn n (skipn (0 * n) d))); [|lra]. apply Rsum_pos; [|intros; apply Pd, Ib; auto].
    cbn [Nat.mul skipn]. intros H1. apply (f_equal (@length R)) in H1. rewrite skipn_length in H1. cbn in H1. nia.
  - assert (0 < Rsum (firstn (c * n) d)); [|lra]. apply Rsum_pos; [|intros; apply Pd, Ia; auto].
    intros H1. apply (f_equal (@length R)) in H1. rewrite firstn_length in H1. cbn in H1. nia.
Qed.

(** adding the same number to every element does not change softmax *)
Lemma C39_softmax_shift_lemma :
  forall (fresh : nat -> R) (x x' : node) (s : shape) (data : list R) (c : R),
    value Rnum x = (s, data) -> value Rnum x' = (s, map (fun v => v + c) data) -> is_fully_defined s = true -> length data = n_elems s ->
    exists s1 s2 d, softmax Rnum fresh x = Ok (s1, d) /\ softmax Rnum fresh x' = Ok (s2, d).
Proof.
  intros fresh x x' s data c E E' F L.
  destruct (softmax_eq fresh x) as (s1 & d & E1 & _ & _ & E4); [rewrite E; split; auto|].
  destruct (softmax_eq fresh x') as (s1' & d' & E1' & _ & _ & E4'); [rewrite E'; split; auto; cbn; now rewrite map_length|].
  rewrite E, E' in *. cbn [fst snd] in *. exists s1, s1', d. split; [exact E1|]. rewrite E1'. do 2 f_equal. rewrite E4, E4', !map_map.
  assert (PS : 0 < Rsum (map exp data)).
  { apply Rsum_pos; [|intros z Hz; apply in_map_iff in Hz; destruct Hz as (v & <- & _); apply exp_pos].
    pose proof (wf_pos (s, data) (conj F L)). destruct data; cbn in *; [lia|discriminate]. }
  assert (ES : Rsum (map (fun v => exp (v + c)) data) = exp c * Rsum (map exp data)).
  { clear. unfold Rsum. induction data as [|v l IH]; cbn; [lra|]. rewrite IH, exp_plus. lra. }
  apply map_ext. intros v. rewrite ES, exp_plus. pose proof (exp_pos c). field. split; lra.
Qed.

(** the hypotheses hold of a constant, a variable and a negated node *)
Lemma C39_nonvacuous_lemma :
  let t := ([2%nat; 2%nat], [0; 1; -1; 3]) in
  value Rnum (NConst t) = t /\ value Rnum (NOther t) = t /\ value Rnum (NNeg t) = ([2%nat; 2%nat], [- 0; - 1; - -1; - 3]) /\
  is_fully_defined (fst t) = true /\ length (snd t) = n_elems (fst t) /\
  exists d, softmax Rnum (fun _ => 0) (NOther ([2%nat], [0; 0])) = Ok ([2%nat], d) /\ nth_error d 0 = Some (1 / (1 + (1 + 0))).
Proof.
  cbn zeta. do 5 (split; [reflexivity|]).
  destruct (softmax_eq (fun _ => 0) (NOther ([2%nat], [0; 0]))) as (s & d & E1 & _ & E3 & E4); [split; reflexivity|].
  cbn [fst snd value] in *. rewrite (E3 ltac:(cbn; lia)) in E1. exists d. split; [exact E1|]. rewrite E4. cbn. rewrite exp_0. reflexivity.
Qed.
