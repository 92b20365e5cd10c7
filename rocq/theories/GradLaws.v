(** Property lemmas about gradients of elementwise graphs (C36). *)
From Coq Require Import Reals ZArith Lra Lia.
From Verif Require Import Common ShapeModel ShapeSpec ShapeProofs TransformProofs ElemSpec ElemModel NumSpec ElemProofs RealNum ElemLaws GradModel GradSpec GradProofs.
Local Open Scope R_scope.

Lemma den_ext i r1 r2 e : (forall v, r1 v = r2 v) -> den i r1 e = den i r2 e.
Proof. intros H. induction e as [v|t|o a IH|o a IHa b IHb| | | | | | |]; cbn [den]; congruence. Qed.

Lemma fd_pos s : is_fully_defined s = true -> (0 < n_elems s)%nat.
Proof. intros F. apply is_fully_defined_iff in F. rewrite n_elems_prod by apply F. apply prod_pos, F. Qed.

(** The value of an elementwise expression, node by node, is the ordinary function it stands
    for, at every position. *)
Lemma C36_value_lemma :
  forall (fresh : nat -> R) (strassen_on : bool) (s : shape) (env : nat -> tens R) (e : expr),
    leaves_fit s env e ->
    exists t, eval Rnum fresh strassen_on env e = Ok t /\ fits s t /\
      forall i, (i < n_elems s)%nat -> at_ t i = den i (fun v => at_ (env v) i) e.
Proof. intros fresh strassen_on s env e H. now apply eval_ok. Qed.

(** The gradient with respect to variable w exists and evaluates, and at every position i its
    element is the derivative of the expression's element i with respect to the variable's
    element i (its only element, if it has one) at the variable's current value. *)
Lemma C36_gradient_lemma :
  forall (fresh : nat -> R) (strassen_on : bool) (same : expr -> expr -> bool), (forall a b, same a b = true -> a = b) ->
  forall (s : shape) (env : nat -> tens R) (w : nat) (e : expr),
    is_fully_defined s = true -> leaves_fit s env e -> fits s (env w) ->
    (forall i, (i < n_elems s)%nat -> regular i (fun v => at_ (env v) i) e) ->
    exists g t, derive Rnum fresh strassen_on same env w e = Ok g /\ eval Rnum fresh strassen_on env g = Ok t /\ fits s t /\
      forall i, (i < n_elems s)%nat ->
        (forall r, exists u, eval Rnum fresh strassen_on (set_elem env w i r) e = Ok u) /\
        derivable_pt_lim (fun r => elem (eval Rnum fresh strassen_on (set_elem env w i r) e) i) (at_ (env w) i) (at_ t i).
Proof.
  intros fresh strassen_on same Hs s env w e F Hl Hw Hr.
  assert (TG : forall k, (k < n_elems s)%nat -> tangent fresh strassen_on s env same w k (fun i => if (length (snd (env w)) =? 1)%nat then 1 else if (i =? k)%nat then 1 else 0) e).
  { intros k Hk. apply tangent_elem; auto.
    - exact (fd_pos s F).
    - intros v. now apply (set_elem_same s).
    - apply (leaves_atoms s env); auto.
      + intros v _ Hv. destruct (Nat.eq_dec v w) as [->|Hvw]; [|now apply tangent_other]. apply tangent_self; [exact Hw|]. intros i Hi.
        destruct (Nat.eqb_spec (length (snd (env w))) 1) as [L1|L1].
        * apply (lim_ext id); [|apply derivable_pt_lim_id]. intros r. unfold id, set_elem. rewrite Nat.eqb_refl. unfold at_. cbn [snd].
          destruct (snd (env w)) as [|x [|y l]]; cbn in L1; try discriminate. reflexivity.
        * destruct (Nat.eqb_spec i k) as [->|Hik].
          -- apply (lim_ext id); [|apply derivable_pt_lim_id]. intros r. symmetry. now apply (set_elem_at_self s).
          -- apply (lim_ext (fct_cte (at_ (env w) i))); [|apply derivable_pt_lim_const]. intros r. symmetry. now apply set_elem_at_other.
      + intros t Ht. now apply tangent_const.
    - now apply regular_v.
    - now apply (elem_noterm _ _ _ s). }
  destruct (TG 0%nat (fd_pos s F)) as (_ & g & G1 & G2 & _).
  destruct (gfit_ev fresh strassen_on s env g G2) as (t & T1 & T2).
  exists g, t. split; [unfold derive, derive_of; rewrite (elem_no_jac _ _ _ s) by auto; unfold grad in G1; now rewrite G1|].
  split; [exact T1|]. split; [exact T2|]. intros i Hi. destruct (TG i Hi) as (_ & g' & G1' & _ & G3). rewrite G1 in G1'. injection G1' as <-. split.
  - intros r. destruct (eval_ok fresh strassen_on s (set_elem env w i r) e) as (u & U1 & _ & _); [now apply set_elem_leaves|eauto].
  - eapply lim_val; [|exact (G3 i Hi)]. cbv beta. unfold nval. rewrite T1. cbn [elem]. rewrite Nat.eqb_refl. destruct (length (snd (env w)) =? 1)%nat; ring.
Qed.

(** The other partial derivatives vanish: changing the variable at another position does not
    change the element at position i at all. *)
Lemma C36_local_lemma :
  forall (fresh : nat -> R) (strassen_on : bool) (s : shape) (env : nat -> tens R) (w : nat) (e : expr) (i j : nat) (r : R),
    leaves_fit s env e -> fits s (env w) -> length (snd (env w)) <> 1%nat -> (i < n_elems s)%nat -> i <> j ->
    elem (eval Rnum fresh strassen_on (set_elem env w j r) e) i = elem (eval Rnum fresh strassen_on env e) i.
Proof.
  intros fresh strassen_on s env w e i j r Hl Hw Hn Hi Hij.
  destruct (eval_ok fresh strassen_on s env e Hl) as (t & T1 & _ & T3).
  destruct (eval_ok fresh strassen_on s (set_elem env w j r) e) as (u & U1 & _ & U3); [now apply set_elem_leaves|].
  rewrite T1, U1. cbn [elem]. rewrite T3, U3 by exact Hi. apply den_ext. intros v. now apply set_elem_at_other.
Qed.

(** A variable that does not occur, or a constant, has the constant gradient zero. *)
Lemma C36_absent_lemma :
  forall (fresh : nat -> R) (strassen_on : bool) (same : expr -> expr -> bool) (env : nat -> tens R) (w : nat) (e : expr),
    (exists s, leaves_fit s env e) -> has_leaf w e = false -> derive Rnum fresh strassen_on same env w e = Ok (EConst ([1%nat], [0])).
Proof.
  intros fresh strassen_on same env w e [s F] H. unfold derive, derive_of. rewrite (elem_no_jac _ _ _ s) by auto.
  destruct e as [v|t|o a|o a b| | | | | | |]; cbn in F; try contradiction; cbn in *; rewrite ?H; reflexivity.
Qed.

(** Building an operation with the folding builders gives the same values as the operation. *)
Lemma C36_builders_lemma :
  forall (fresh : nat -> R) (strassen_on : bool) (same : expr -> expr -> bool), (forall a b, same a b = true -> a = b) ->
  forall (s : shape) (env : nat -> tens R) (a b : expr), is_fully_defined s = true -> leaves_fit s env a -> leaves_fit s env b ->
    (forall op, op <> UAbs -> (forall c, op = UDivL c -> forall i, (i < n_elems s)%nat -> den i (fun v => at_ (env v) i) a <> 0) -> (forall c, op = UDivR c -> c <> 0) ->
       exists e t, mk_unary Rnum op a = Ok e /\ eval Rnum fresh strassen_on env e = Ok t /\
         forall i, (i < n_elems s)%nat -> at_ t i = meaning Rnum op (elem (eval Rnum fresh strassen_on env a) i)) /\
    (forall op, (op = BDiv -> forall i, (i < n_elems s)%nat -> den i (fun v => at_ (env v) i) b <> 0) ->
       exists e t, mk_binary Rnum same op a b = Ok e /\ eval Rnum fresh strassen_on env e = Ok t /\
         forall i, (i < n_elems s)%nat -> at_ t i = bmeaning Rnum op (elem (eval Rnum fresh strassen_on env a) i) (elem (eval Rnum fresh strassen_on env b) i)).
Proof.
  intros fresh strassen_on same Hs s env a b F Ha Hb.
  destruct (eval_ok fresh strassen_on s env a Ha) as (ta & A1 & _ & A3). destruct (eval_ok fresh strassen_on s env b Hb) as (tb & B1 & _ & B3). split.
  - intros op Ho H1 H2. destruct (gives_unary fresh strassen_on s env (fd_pos s F) op a) as (e & E1 & E2 & E3); [now apply leaves_gfit|exact Ho|destruct op; cbn; eauto; intros i Hi; rewrite (val_den _ _ s) by auto; eauto|].
    destruct (gfit_ev fresh strassen_on s env e E2) as (t & T1 & _). exists e, t. split; [exact E1|]. split; [exact T1|]. intros i Hi.
    specialize (E3 i Hi). unfold nval in E3. rewrite T1 in E3. exact E3.
  - intros op H1. destruct (gives_binary fresh strassen_on s env same Hs (fd_pos s F) op a b) as (e & E1 & E2 & E3); [now apply leaves_gfit|now apply leaves_gfit|intros Ho i Hi; rewrite (val_den _ _ s) by auto; eauto|].
    destruct (gfit_ev fresh strassen_on s env e E2) as (t & T1 & _). exists e, t. split; [exact E1|]. split; [exact T1|]. intros i Hi.
    specialize (E3 i Hi). unfold nval in E3. rewrite T1 in E3. exact E3.
Qed.

(** Findings. The gradient of unary plus is unary plus of the gradient, and unary plus of a
    constant is its absolute value: the gradient of +(-x) is +1, its derivative -1. *)
Lemma C36_plus_refuted_lemma :
  forall (fresh : nat -> R) (strassen_on : bool) (same : expr -> expr -> bool) (env : nat -> tens R) (x : R), env 0%nat = ([1%nat], [x]) ->
    let e := EUn UAbs (EUn UNeg (EVar 0)) in
    derive Rnum fresh strassen_on same env 0 e = Ok (EConst ([1%nat], [Rabs (- 1)])) /\ Rabs (- 1) = 1 /\
    derivable_pt_lim (fun r => elem (eval Rnum fresh strassen_on (set_elem env 0 0 r) e) 0) x (- 1).
Proof.
  intros fresh strassen_on same env x E e. split; [reflexivity|]. split; [rewrite Rabs_left; lra|].
  apply (lim_ext (fun r => - r)).
  - intros r. destruct (eval_ok fresh strassen_on [1%nat] (set_elem env 0 0 r) e) as (t & T1 & _ & T3).
    + cbn. unfold set_elem. cbn. rewrite E. cbn. repeat split; auto.
    + rewrite T1. cbn [elem]. rewrite T3 by (cbn; lia). cbn. unfold set_elem. cbn. rewrite E. reflexivity.
  - change (derivable_pt_lim (opp_fct id) x (- 1)). apply derivable_pt_lim_opp, derivable_pt_lim_id.
Qed.

(** The gradient of clip_val multiplies by the clipped value instead of by one: inside the
    interval it is v times too large. *)
Lemma C36_clip_refuted_lemma :
  forall (fresh : nat -> R) (strassen_on : bool) (same : expr -> expr -> bool) (env : nat -> tens R) (x lo hi : R),
    env 0%nat = ([1%nat], [x]) -> (forall a b, same a b = true -> a = b) -> lo < x < hi -> 
    let e := EUn (UClip lo hi) (EVar 0) in
    (exists g t, derive Rnum fresh strassen_on same env 0 e = Ok g /\ eval Rnum fresh strassen_on env g = Ok t /\ at_ t 0 = x) /\
    derivable_pt_lim (fun r => elem (eval Rnum fresh strassen_on (set_elem env 0 0 r) e) 0) x 1.
Proof.
  intros fresh strassen_on same env x lo hi E Hs H e.
  assert (Ev : forall env' v, env' 0%nat = ([1%nat], [v]) -> eval Rnum fresh strassen_on env' e = Ok ([1%nat], [meaning Rnum (UClip lo hi) v])).
  { intros env' v Ee. cbn [eval e]. rewrite Ee. cbn [bind]. rewrite unary_ok by (split; reflexivity). cbn [fst snd map]. rewrite fwd_lambda_meaning. reflexivity. }
  assert (Hc : Rltb hi lo = false) by (apply Rltb_false; lra).
  assert (Cl : forall v, lo < v < hi -> meaning Rnum (UClip lo hi) v = v).
  { intros v Hv. cbn. rewrite Hc. assert (E1 : Rltb v lo = false) by (apply Rltb_false; lra). assert (E2 : Rltb hi v = false) by (apply Rltb_false; lra). now rewrite E1, E2. }
  split.
  - assert (G : derive Rnum fresh strassen_on same env 0 e = Ok e).
    { unfold derive, derive_of, e. cbn [info inherit terminal fst snd has_leaf Nat.eqb bind]. cbn [back_unary]. unfold clip_order. cbn [n_ltb Rnum]. rewrite Hc. cbn [mk_unary bind fold_node].
      cbn [mk_binary]. destruct (same _ _) eqn:S; [apply Hs in S; discriminate|]. cbn [cview_of const_is snd const_scalar n_one n_zero n_eqb Rnum].
      assert (Z : Reqb 0 1 = false) by (destruct (Reqb 0 1) eqn:Z; auto; apply Reqb_iff in Z; lra). rewrite Z.
      cbn. rewrite Z. destruct (Reqb 1 1) eqn:O; [reflexivity|]. assert (Reqb 1 1 = true) by now apply Reqb_iff. congruence. }
    exists e, ([1%nat], [x]). split; [exact G|]. split; [|reflexivity]. rewrite (Ev env x E). now rewrite Cl.
  - apply (lim_ext_loc id _ _ _ (Rmin (x - lo) (hi - x))).
    + apply Rmin_pos; lra.
    + intros y Hy. rewrite (Ev _ y) by (unfold set_elem; cbn; rewrite E; reflexivity). unfold elem, at_. cbn [snd]. rewrite Cl; [reflexivity|].
      pose proof (Rmin_l (x - lo) (hi - x)). pose proof (Rmin_r (x - lo) (hi - x)). apply Rabs_def2 in Hy. lra.
    + apply derivable_pt_lim_id.
Qed.

(** derive with respect to an operation node returns the expression with that node replaced
    by the constant one, not a derivative: for y^2 with respect to the node y it is 1
    whatever y is. *)
Lemma C36_derive_node_refuted_lemma :
  forall (fresh : nat -> R) (strassen_on : bool) (env : nat -> tens R) (is_target : expr -> bool) (y : expr),
    is_target (EUn (UPow 2) y) = false -> is_target y = true ->
    temp_eval Rnum is_target (EUn (UPow 2) y) = EUn (UPow 2) (EConst ([1%nat], [1])) /\
    eval Rnum fresh strassen_on env (temp_eval Rnum is_target (EUn (UPow 2) y)) = Ok ([1%nat], [1]) /\
    forall v, derivable_pt_lim (fun r => meaning Rnum (UPow 2) r) v (2 * v).
Proof.
  intros fresh strassen_on env is_target y H1 H2.
  assert (T : temp_eval Rnum is_target (EUn (UPow 2) y) = EUn (UPow 2) (EConst ([1%nat], [1]))).
  { cbn [temp_eval]. rewrite H1. destruct y; cbn [temp_eval]; now rewrite H2. }
  split; [exact T|]. split.
  - rewrite T. cbn [eval bind]. rewrite unary_ok by (split; reflexivity). cbn. rewrite (Rpow_IZR 1 2). change (powerRZ 1 2) with (1 ^ 2). rewrite pow1. reflexivity.
  - intros v. eapply lim_val; [|apply (slope_ok (UPow 2)); right; exists 2%Z; split; [reflexivity|left; lia]]. cbn [slope].
    replace (2 - 1) with (IZR 1) by lra. rewrite Rpow_IZR. change (powerRZ v 1) with (v ^ 1). lra.
Qed.

(** the gradient of round is the rounded gradient, one for a variable, although round is
    locally constant away from the halves *)
Lemma C36_round_refuted_lemma :
  forall (fresh : nat -> R) (strassen_on : bool) (same : expr -> expr -> bool) (env : nat -> tens R), env 0%nat = ([1%nat], [0]) ->
    let e := EUn URound (EVar 0) in
    derive Rnum fresh strassen_on same env 0 e = Ok (EConst ([1%nat], [Rround 1])) /\ Rround 1 = 1 /\
    derivable_pt_lim (fun r => elem (eval Rnum fresh strassen_on (set_elem env 0 0 r) e) 0) 0 0.
Proof.
  intros fresh strassen_on same env E e. split; [reflexivity|]. split.
  - unfold Rround. destruct (Rle_dec 0 1); [|lra]. assert (I : Int_part (1 + / 2) = 1%Z); [|now rewrite I].
    unfold Int_part. assert (U : (1 + 1)%Z = up (1 + / 2)); [apply tech_up; cbn; lra|]. lia.
  - apply (lim_ext_loc (fct_cte 0) _ _ _ (/ 2)); [lra| |apply derivable_pt_lim_const].
    intros y Hy. cbn [eval e]. unfold set_elem. cbn [Nat.eqb]. rewrite E. cbn [fst snd bind]. rewrite unary_ok by (split; reflexivity). cbn. unfold at_, fct_cte. cbn.
    rewrite Rminus_0_r in Hy. apply Rabs_def2 in Hy. unfold Rround. destruct (Rle_dec 0 y).
    + assert (I : Int_part (y + / 2) = 0%Z); [|now rewrite I]. unfold Int_part. assert (U : (0 + 1)%Z = up (y + / 2)); [apply tech_up; cbn; lra|]. lia.
    + assert (I : Int_part (- y + / 2) = 0%Z); [|rewrite I; lra]. unfold Int_part. assert (U : (0 + 1)%Z = up (- y + / 2)); [apply tech_up; cbn; lra|]. lia.
Qed.

(** the hypotheses hold of (x*y + sin x)/(x - 2) on a 2-vector x and a scalar y *)
Lemma C36_nonvacuous_lemma :
  let env := fun v => match v with O => ([2%nat], [0; 1]) | _ => ([1%nat], [3]) end in
  let e := EBin BDiv (EBin BAdd (EBin BMul (EVar 0) (EVar 1)) (EUn USin (EVar 0))) (EUn (USubR 2) (EVar 0)) in
  is_fully_defined [2%nat] = true /\ leaves_fit [2%nat] env e /\ fits [2%nat] (env 0%nat) /\
  (forall i, (i < n_elems [2%nat])%nat -> regular i (fun v => at_ (env v) i) e) /\
  (forall a b : @expr R, (fun _ _ => false) a b = true -> a = b) /\
  exists g, derive Rnum (fun _ => 0) true (fun _ _ => false) env 0 e = Ok g /\ has_leaf 1 g = true.
Proof.
  cbn zeta. split; [reflexivity|].
  assert (L0 : fits [2%nat] ([2%nat], [0; 1])) by (repeat split; auto).
  assert (L1 : fits [2%nat] ([1%nat], [3])) by (repeat split; auto).
  split; [cbn; auto|]. split; [exact L0|]. split.
  - intros i Hi. cbn in Hi. destruct i as [|[|i]]; [| |lia]; cbn; repeat split; auto; try discriminate; intros _ Hz; unfold at_ in Hz; cbn in Hz; lra.
  - split; [discriminate|]. unfold derive, derive_of. cbn [info inherit terminal fst snd has_leaf Nat.eqb orb bind]. cbn [back_unary back_binary mk_unary bind fold_node mk_neg mk_binary cview_of const_is snd const_scalar n_one n_zero n_two n_eqb Rnum one_elem fst].
    assert (Z : Reqb 0 1 = false) by (destruct (Reqb 0 1) eqn:Z; auto; apply Reqb_iff in Z; lra).
    assert (O : Reqb 1 1 = true) by now apply Reqb_iff. assert (ZZ : Reqb 0 0 = true) by now apply Reqb_iff.
    cbn. rewrite ?Z, ?O, ?ZZ. cbn. rewrite ?Z, ?O, ?ZZ. cbn. eexists. split; [reflexivity|]. reflexivity.
Qed.
