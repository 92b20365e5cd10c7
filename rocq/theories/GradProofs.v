(** Proofs about gradient construction. *)
From Coq Require Import Reals ZArith Lra Lia.
From Verif Require Import Common ShapeModel ShapeSpec ShapeProofs TransformProofs ElemSpec ElemModel NumSpec ElemProofs RealNum ElemLaws GradModel GradSpec.
Local Open Scope R_scope.

(** ---- derivatives of the scalar operations ---- *)
Lemma lim_ext_loc (f g : R -> R) x l d : 0 < d -> (forall y, Rabs (y - x) < d -> f y = g y) -> derivable_pt_lim f x l -> derivable_pt_lim g x l.
Proof.
  intros Hd E H eps He. destruct (H eps He) as [del Hdel].
  assert (P : 0 < Rmin del d) by (apply Rmin_pos; [apply (cond_pos del)|exact Hd]).
  exists (mkposreal _ P). intros h Hh Hlt. cbn in Hlt. rewrite <- !E.
  - apply Hdel; auto. eapply Rlt_le_trans; [exact Hlt|apply Rmin_l].
  - rewrite Rminus_eq_0, Rabs_R0. exact Hd.
  - replace (x + h - x) with h by ring. eapply Rlt_le_trans; [exact Hlt|apply Rmin_r].
Qed.
Lemma lim_ext (f g : R -> R) x l : (forall y, f y = g y) -> derivable_pt_lim f x l -> derivable_pt_lim g x l.
Proof. intros H. apply (lim_ext_loc _ _ _ _ 1); [lra|auto]. Qed.
Lemma lim_val (f : R -> R) x l l' : l = l' -> derivable_pt_lim f x l -> derivable_pt_lim f x l'.
Proof. now intros ->. Qed.

Lemma lim_inv y : y <> 0 -> derivable_pt_lim (fun x => / x) y (- / (y * y)).
Proof.
  intros H. apply (lim_ext (div_fct (fct_cte 1) id)); [intros x; unfold div_fct, fct_cte, id; lra|].
  eapply lim_val; [|apply derivable_pt_lim_div; [apply derivable_pt_lim_const|apply derivable_pt_lim_id|exact H]].
  unfold Rsqr, id, fct_cte. field. exact H.
Qed.

Lemma lim_powerRZ y z : (0 <= z)%Z \/ y <> 0 -> derivable_pt_lim (fun x => powerRZ x z) y (IZR z * powerRZ y (z - 1)).
Proof.
  intros H. destruct z as [|p|p].
  - cbn. apply (lim_val _ _ 0); [ring|]. apply derivable_pt_lim_const.
  - assert (E : powerRZ y (Z.pos p - 1) = y ^ pred (Pos.to_nat p)).
    { rewrite pow_powerRZ. f_equal. lia. }
    rewrite E. change (fun x => powerRZ x (Z.pos p)) with (fun x => x ^ Pos.to_nat p).
    eapply lim_val; [|apply derivable_pt_lim_pow]. f_equal. rewrite INR_IZR_INZ. f_equal. lia.
  - destruct H as [H|H]; [lia|]. set (n := Pos.to_nat p). change (fun x => powerRZ x (Z.neg p)) with (fun x => / (x ^ n)).
    eapply lim_val; [|apply (derivable_pt_lim_comp (fun x => x ^ n) (fun x => / x)); [apply derivable_pt_lim_pow|apply lim_inv; now apply pow_nonzero]].
    replace (Z.neg p - 1)%Z with (- Z.of_nat (S n))%Z by (unfold n; lia).
    assert (E : powerRZ y (- Z.of_nat (S n)) = / y ^ S n).
    { destruct (Z.of_nat (S n)) as [|q|q] eqn:Eq; try lia. cbn [Z.opp powerRZ]. do 2 f_equal. lia. }
    rewrite E. assert (En : IZR (Z.neg p) = - INR n) by (rewrite INR_IZR_INZ, <- opp_IZR; f_equal; unfold n; lia). rewrite En.
    assert (Sn : n = S (pred n)) by (unfold n; lia). set (m := pred n) in *. rewrite Sn. cbn [pow]. pose proof (pow_nonzero y m H). field. auto.
Qed.

Lemma Rpow_nonint x s : s <> IZR (Int_part s) -> 0 < x -> Rpow x s = Rpower x s.
Proof. intros H1 H2. unfold Rpow. destruct (Req_EM_T s (IZR (Int_part s))); [congruence|]. destruct (Rlt_dec 0 x); [reflexivity|lra]. Qed.

Lemma lim_Rpow y s : smooth_at (UPow s) y -> derivable_pt_lim (fun x => Rpow x s) y (s * Rpow y (s - 1)).
Proof.
  intros H. destruct (Req_EM_T s (IZR (Int_part s))) as [E|E].
  - set (z := Int_part s) in *. assert (H' : (0 <= z)%Z \/ y <> 0).
    { destruct H as [H|[z' [H1 H2]]]; [right; lra|]. assert (Ez : z' = z) by (unfold z; rewrite H1; symmetry; apply Int_part_IZR). now rewrite <- Ez. }
    rewrite E. replace (IZR z - 1) with (IZR (z - 1)) by (rewrite minus_IZR; reflexivity). rewrite Rpow_IZR.
    eapply lim_ext; [intros x; symmetry; apply Rpow_IZR|]. now apply lim_powerRZ.
  - assert (P : 0 < y).
    { destruct H as [H|[z' [H1 H2]]]; [exact H|]. exfalso. apply E. rewrite H1, Int_part_IZR. reflexivity. }
    assert (E1 : s - 1 <> IZR (Int_part (s - 1))).
    { intros H1. apply E. assert (Hs : s = IZR (Int_part (s - 1) + 1)) by (rewrite plus_IZR; lra). rewrite Hs at 2. rewrite Int_part_IZR. exact Hs. }
    rewrite Rpow_nonint by auto.
    apply (lim_ext_loc (fun x => Rpower x s) _ _ _ y); [exact P| |now apply derivable_pt_lim_power].
    intros x Hx. symmetry. apply Rpow_nonint; [exact E|]. apply Rabs_def2 in Hx. lra.
Qed.

(** derivative of each smooth operation *)
Definition slope (op : @uop R) (y : R) : R :=
  match op with
  | UNeg => - 1
  | USin => cos y
  | UCos => - sin y
  | UTan => 1 / (cos y * cos y)
  | UCsc => - (1 / (sin y * tan y))
  | USec => tan y / cos y
  | UCot => - (1 / sin y * (1 / sin y))
  | UExp => exp y
  | USqrt => 1 / (2 * sqrt y)
  | ULog => 1 / y
  | UPow s => s * Rpow y (s - 1)
  | UAddL _ | UAddR _ | USubR _ => 1
  | USubL _ => - 1
  | UMulL c | UMulR c => c
  | UDivL c => - c / (y * y)
  | UDivR c => 1 / c
  | _ => 0
  end.

Lemma slope_ok op y : smooth_at op y -> derivable_pt_lim (meaning Rnum op) y (slope op y).
Proof.
  intros H. destruct op; cbn [smooth_at] in H; try contradiction; cbn [slope].
  - change (derivable_pt_lim (opp_fct id) y (- 1)). apply derivable_pt_lim_opp, derivable_pt_lim_id.
  - change (derivable_pt_lim sin y (cos y)). apply derivable_pt_lim_sin.
  - change (derivable_pt_lim cos y (- sin y)). apply derivable_pt_lim_cos.
  - change (derivable_pt_lim tan y (1 / (cos y * cos y))). apply (lim_ext (div_fct sin cos)); [reflexivity|].
    eapply lim_val; [|apply derivable_pt_lim_div; [apply derivable_pt_lim_sin|apply derivable_pt_lim_cos|exact H]].
    pose proof (sin2_cos2 y) as S. unfold Rsqr in *. replace (cos y * cos y - - sin y * sin y) with 1 by lra. reflexivity.
  - destruct H as [H1 H2]. apply (lim_ext (fun x => / sin x)); [intros x; cbn; lra|].
    eapply lim_val; [|apply (derivable_pt_lim_comp sin (fun x => / x)); [apply derivable_pt_lim_sin|apply lim_inv; exact H1]].
    unfold tan. field. auto.
  - apply (lim_ext (fun x => / cos x)); [intros x; cbn; lra|].
    eapply lim_val; [|apply (derivable_pt_lim_comp cos (fun x => / x)); [apply derivable_pt_lim_cos|apply lim_inv; exact H]].
    unfold tan. field. auto.
  - change (derivable_pt_lim (div_fct cos sin) y (- (1 / sin y * (1 / sin y)))).
    eapply lim_val; [|apply derivable_pt_lim_div; [apply derivable_pt_lim_cos|apply derivable_pt_lim_sin|exact H]].
    pose proof (sin2_cos2 y) as S. unfold Rsqr in *. replace (- sin y * sin y - cos y * cos y) with (-1) by lra. field. exact H.
  - change (derivable_pt_lim exp y (exp y)). apply derivable_pt_lim_exp.
  - change (derivable_pt_lim sqrt y (1 / (2 * sqrt y))). eapply lim_val; [|apply derivable_pt_lim_sqrt; exact H]. unfold Rdiv. ring.
  - change (derivable_pt_lim ln y (1 / y)). eapply lim_val; [|apply derivable_pt_lim_ln; exact H]. unfold Rdiv. ring.
  - change (derivable_pt_lim (fun x => Rpow x s) y (s * Rpow y (s - 1))). now apply lim_Rpow.
  - apply (lim_ext (plus_fct (fct_cte a) id)); [reflexivity|]. apply (lim_val _ _ (0 + 1)); [ring|]. apply derivable_pt_lim_plus; [apply derivable_pt_lim_const|apply derivable_pt_lim_id].
  - apply (lim_ext (plus_fct id (fct_cte b))); [reflexivity|]. apply (lim_val _ _ (1 + 0)); [ring|]. apply derivable_pt_lim_plus; [apply derivable_pt_lim_id|apply derivable_pt_lim_const].
  - apply (lim_ext (minus_fct (fct_cte a) id)); [reflexivity|]. apply (lim_val _ _ (0 - 1)); [ring|]. apply derivable_pt_lim_minus; [apply derivable_pt_lim_const|apply derivable_pt_lim_id].
  - apply (lim_ext (minus_fct id (fct_cte b))); [reflexivity|]. apply (lim_val _ _ (1 - 0)); [ring|]. apply derivable_pt_lim_minus; [apply derivable_pt_lim_id|apply derivable_pt_lim_const].
  - apply (lim_ext (mult_real_fct a id)); [reflexivity|]. apply (lim_val _ _ (a * 1)); [ring|]. apply derivable_pt_lim_scal, derivable_pt_lim_id.
  - apply (lim_ext (mult_real_fct b id)); [intros x; unfold mult_real_fct, id; cbn; ring|]. apply (lim_val _ _ (b * 1)); [ring|]. apply derivable_pt_lim_scal, derivable_pt_lim_id.
  - apply (lim_ext (mult_real_fct a (fun x => / x))); [intros x; unfold mult_real_fct; cbn; unfold Rdiv; ring|].
    apply (lim_val _ _ (a * (- / (y * y)))); [field; exact H|]. apply derivable_pt_lim_scal, lim_inv, H.
  - apply (lim_ext (mult_real_fct (/ b) id)); [intros x; unfold mult_real_fct, id; cbn; unfold Rdiv; ring|].
    apply (lim_val _ _ (/ b * 1)); [field; exact H|]. apply derivable_pt_lim_scal, derivable_pt_lim_id.
Qed.

(** ---- values ---- *)
Lemma fits_wf s t : fits s t -> wf t.
Proof. intros (H1 & H2 & _). now split. Qed.

Lemma at_nth (t : tens R) i : length (snd t) <> 1%nat -> at_ t i = nth i (snd t) 0.
Proof. unfold at_. destruct (snd t) as [|x [|y l]]; cbn; [reflexivity|congruence|reflexivity]. Qed.
Lemma at_one (t : tens R) i : length (snd t) = 1%nat -> at_ t i = nth 0 (snd t) 0.
Proof. unfold at_. destruct (snd t) as [|x [|y l]]; cbn; try discriminate. reflexivity. Qed.

Lemma at_map (f : R -> R) s t u i : fits s t -> (i < n_elems s)%nat -> at_ (u, map f (snd t)) i = f (at_ t i).
Proof.
  intros (F & L & H) Hi. unfold at_. cbn [snd]. destruct (snd t) as [|x [|y l]] eqn:E; cbn [map].
  - exfalso. destruct H as [H|H]; [rewrite H in L|rewrite H in L]; cbn in L; lia.
  - reflexivity.
  - destruct H as [H|H]; [|rewrite H in L; cbn in L; lia]. rewrite H in L.
    change (f x :: f y :: map f l) with (map f (x :: y :: l)). rewrite (nth_indep _ 0 (f 0)) by (rewrite map_length; lia). apply map_nth.
Qed.

Lemma fits_scalar s v : fits s (const_scalar v).
Proof. repeat split; try reflexivity. now right. Qed.
Lemma at_scalar v i : at_ (const_scalar v) i = v.
Proof. reflexivity. Qed.
Lemma fits_map s t f : fits s t -> fits s (fst t, map f (snd t)).
Proof. intros (F & L & H). split; [exact F|]. split; [cbn; now rewrite map_length|exact H]. Qed.

Section Val.
Context (fresh : nat -> R) (use : bool) (s : shape).
Let n := n_elems s.

Section Eval.
Context (env : nat -> tens R).
Notation ev := (eval Rnum fresh use env).

(** value of a node at position i *)
Definition nval (i : nat) (e : @expr R) : R := elem (ev e) i.
(** elementwise operations over nodes whose value has shape s or one element *)
Fixpoint gfit (e : @expr R) : Prop :=
  match e with
  | EUn _ a => gfit a
  | EBin _ a b => gfit a /\ gfit b
  | _ => exists t, ev e = Ok t /\ fits s t
  end.

Lemma un_ok op a t : ev a = Ok t -> fits s t ->
  exists u, ev (EUn op a) = Ok u /\ fits s u /\ length (snd u) = length (snd t) /\ forall i, (i < n)%nat -> at_ u i = meaning Rnum op (at_ t i).
Proof.
  intros E F. cbn [eval]. rewrite E. cbn [bind]. rewrite unary_ok by (eapply fits_wf; exact F).
  eexists. split; [reflexivity|]. pose proof F as (F1 & F2 & F3). split.
  + split; [now apply ushape_def|]. split; [cbn; rewrite map_length, ushape_n; exact F2|]. cbn [fst]. rewrite ushape_n.
    destruct F3 as [F3|F3]; [|now right]. unfold ushape. destruct (Nat.eqb_spec (n_elems (fst t)) 1); [now right|now left].
  + split; [cbn; now rewrite map_length|]. intros i Hi. rewrite (at_map _ s) by auto. now rewrite fwd_lambda_meaning.
Qed.

Lemma bin_gen (f : R -> R -> R) ta tb : fits s ta -> fits s tb ->
  exists u, forward_pass fresh elementary_shaper (binary_elem f) [ta; tb] None = Ok u /\ fits s u /\ (length (snd ta) = n -> length (snd u) = n) /\ (length (snd tb) = n -> length (snd u) = n) /\
    forall i, (i < n)%nat -> at_ u i = f (at_ ta i) (at_ tb i).
Proof.
  intros Fa Fb. destruct ta as [sa la]. destruct tb as [sb lb].
  pose proof Fa as (A1 & A2 & A3). pose proof Fb as (B1 & B2 & B3). cbn [fst snd] in *.
  destruct (C23_binary_pointwise_lemma R fresh f sa sb la lb A1 B1 A2 B2) as (d & E1 & E2 & E3 & E4).
  { destruct A3 as [A3|A3]; [|left; congruence]. destruct B3 as [B3|B3]; [|right; left; congruence]. right. right. left. congruence. }
  cbn zeta in *. set (outs := if (length lb =? 1)%nat then if (length la =? 1)%nat then [1%nat] else sa else sb) in *.
  exists (outs, d). split; [apply E1; now left|].
  assert (Fo : is_fully_defined outs = true) by (unfold outs; destruct (length lb =? 1)%nat; auto; destruct (length la =? 1)%nat; auto).
  assert (So : outs = s \/ n_elems outs = 1%nat).
  { unfold outs. destruct (Nat.eqb_spec (length lb) 1) as [L1|L1].
    - destruct (Nat.eqb_spec (length la) 1) as [L2|L2]; [now right|]. destruct A3 as [A3|A3]; [now left|congruence].
    - destruct B3 as [B3|B3]; [now left|congruence]. }
  split; [split; [exact Fo|]; split; [exact E2|exact So]|]. cbn [snd].
  split. { intros H. rewrite E2. unfold outs. destruct (Nat.eqb_spec (length lb) 1) as [L1|L1].
    - destruct (Nat.eqb_spec (length la) 1) as [L2|L2]; [cbn; congruence|]. congruence.
    - destruct B3 as [B3|B3]; [now rewrite B3|congruence]. }
  split. { intros H. rewrite E2. unfold outs. destruct (Nat.eqb_spec (length lb) 1) as [L1|L1]; [|congruence].
    destruct (Nat.eqb_spec (length la) 1) as [L2|L2]; [cbn; congruence|]. destruct A3 as [A3|A3]; [now rewrite A3|congruence]. }
  intros i Hi. assert (Hx : forall (l : list R) ss, length l = n_elems ss -> (ss = s \/ n_elems ss = 1%nat) ->
    (nth_error l (if (length l =? 1)%nat then 0%nat else i) = Some (at_ (ss, l) i))).
  { intros l ss Hl Hs. unfold at_. cbn [snd]. destruct l as [|x [|y l]].
    - exfalso. cbn in Hl. destruct Hs as [Hs|Hs]; [subst ss; unfold n in Hi; lia|lia].
    - reflexivity.
    - cbn [length Nat.eqb]. destruct Hs as [Hs|Hs]; [|cbn in Hl; lia]. subst ss. apply nth_error_nth'. unfold n in Hi. lia. }
  destruct (Nat.eq_dec (n_elems outs) 1) as [N1|N1].
  + destruct (E4 0%nat) as (x & y & X1 & X2 & X3); [lia|].
    assert (Lab : length la = 1%nat /\ length lb = 1%nat) by (pose proof (wf_pos (sa, la) (conj A1 A2)); pose proof (wf_pos (sb, lb) (conj B1 B2)); cbn [snd] in *; lia).
    destruct Lab as [La Lb]. pose proof (Hx la sa A2 A3) as Y1. pose proof (Hx lb sb B2 B3) as Y2. rewrite La in *. rewrite Lb in *. cbn [Nat.eqb] in *.
    rewrite X1 in Y1. rewrite X2 in Y2. injection Y1 as <-. injection Y2 as <-.
    rewrite at_one by (cbn; congruence). cbn [snd]. now apply nth_error_nth.
  + assert (Hio : (i < n_elems outs)%nat) by (destruct So as [->|]; [exact Hi|congruence]).
    destruct (E4 i Hio) as (x & y & X1 & X2 & X3). rewrite (Hx la sa A2 A3) in X1. rewrite (Hx lb sb B2 B3) in X2. injection X1 as <-. injection X2 as <-.
    rewrite at_nth by (cbn; congruence). cbn [snd]. now apply nth_error_nth.
Qed.

Lemma bin_ok op a b ta tb : ev a = Ok ta -> ev b = Ok tb -> fits s ta -> fits s tb ->
  exists u, ev (EBin op a b) = Ok u /\ fits s u /\ (length (snd ta) = n -> length (snd u) = n) /\ (length (snd tb) = n -> length (snd u) = n) /\
    forall i, (i < n)%nat -> at_ u i = bmeaning Rnum op (at_ ta i) (at_ tb i).
Proof. intros Ea Eb Fa Fb. cbn [eval]. rewrite Ea, Eb. cbn [bind]. change (bmeaning Rnum op) with (bop_lambda Rnum op). now apply bin_gen. Qed.

Lemma gfit_ev e : gfit e -> exists t, ev e = Ok t /\ fits s t.
Proof.
  induction e as [v|t|op a IH|op a IHa b IHb| | | | | | |]; cbn [gfit]; try (intros H; exact H).
  - intros H. destruct (IH H) as (t & E & F). destruct (un_ok op a t E F) as (u & U1 & U2 & _). eauto.
  - intros [Ha Hb]. destruct (IHa Ha) as (ta & Ea & Fa). destruct (IHb Hb) as (tb & Eb & Fb). destruct (bin_ok op a b ta tb Ea Eb Fa Fb) as (u & U1 & U2 & _). eauto.
Qed.
Lemma val_un op a i : gfit a -> (i < n)%nat -> nval i (EUn op a) = meaning Rnum op (nval i a).
Proof. intros H Hi. destruct (gfit_ev a H) as (t & E & F). destruct (un_ok op a t E F) as (u & U1 & _ & _ & U2). unfold nval. rewrite U1, E. now apply U2. Qed.
Lemma val_bin op a b i : gfit a -> gfit b -> (i < n)%nat -> nval i (EBin op a b) = bmeaning Rnum op (nval i a) (nval i b).
Proof.
  intros Ha Hb Hi. destruct (gfit_ev a Ha) as (ta & Ea & Fa). destruct (gfit_ev b Hb) as (tb & Eb & Fb).
  destruct (bin_ok op a b ta tb Ea Eb Fa Fb) as (u & U1 & _ & _ & _ & U2). unfold nval. rewrite U1, Ea, Eb. now apply U2.
Qed.
Lemma val_const i t : nval i (EConst t) = at_ t i.
Proof. reflexivity. Qed.
Lemma gfit_const t : gfit (EConst t) -> fits s t.
Proof. intros (u & E & F). cbn in E. congruence. Qed.
Lemma gfit_const_intro t : fits s t -> gfit (EConst t).
Proof. intros F. exists t. split; [reflexivity|exact F]. Qed.

(** elementwise expressions with their leaves (GradSpec) *)
Lemma leaves_gfit e : leaves_fit s env e -> gfit e.
Proof.
  induction e as [v|t|op a IH|op a IHa b IHb| | | | | | |]; cbn [leaves_fit gfit]; try contradiction; auto.
  - intros H. exists (env v). split; [reflexivity|exact H].
  - intros H. exists t. split; [reflexivity|exact H].
  - intros [Ha Hb]. auto.
Qed.
Lemma val_den i e : leaves_fit s env e -> (i < n)%nat -> nval i e = den i (fun v => at_ (env v) i) e.
Proof.
  intros H Hi. induction e as [v|t|op a IH|op a IHa b IHb| | | | | | |]; cbn [leaves_fit] in H; try contradiction; cbn [den]; auto.
  - rewrite val_un by (auto; now apply leaves_gfit). now rewrite IH.
  - destruct H as [Ha Hb]. rewrite val_bin by (auto; now apply leaves_gfit). now rewrite IHa, IHb.
Qed.
Lemma eval_ok e : leaves_fit s env e ->
  exists t, ev e = Ok t /\ fits s t /\ forall i, (i < n)%nat -> at_ t i = den i (fun v => at_ (env v) i) e.
Proof.
  intros H. destruct (gfit_ev e (leaves_gfit e H)) as (t & E & F). exists t. split; [exact E|]. split; [exact F|].
  intros i Hi. rewrite <- (val_den i e H Hi). unfold nval. now rewrite E.
Qed.
End Eval.
Arguments nval : simpl never.

(** ---- the builders ---- *)
Context (env : nat -> tens R) (same : @expr R -> @expr R -> bool) (same_ok : forall a b, same a b = true -> a = b).
Notation fit := (gfit env).
Notation val := (nval env).

(** [r] is a node with value [f i] at position i *)
Definition gives (r : res (@expr R)) (f : nat -> R) : Prop :=
  exists e, r = Ok e /\ fit e /\ forall i, (i < n)%nat -> val i e = f i.

Lemma gives_ok e f : fit e -> (forall i, (i < n)%nat -> val i e = f i) -> gives (Ok e) f.
Proof. intros H1 H2. exists e. auto. Qed.
Lemma gives_scalar v f : (forall i, (i < n)%nat -> f i = v) -> gives (Ok (EConst (const_scalar v))) f.
Proof. intros H. apply gives_ok; [apply gfit_const_intro, fits_scalar|]. intros i Hi. rewrite val_const. now rewrite H. Qed.

Lemma gives_fold op a : fit a -> op <> UAbs -> gives (Ok (fold_node Rnum op a)) (fun i => meaning Rnum op (val i a)).
Proof.
  intros H Ho. destruct a as [v|t|o a|o a b| | | | | | |]; cbn [fold_node]; try (apply gives_ok; [exact H|]; intros i Hi; now apply val_un).
  apply gfit_const in H. apply gives_ok; [apply gfit_const_intro, fits_map; exact H|]. intros i Hi. rewrite !val_const. rewrite (at_map _ s) by auto. now rewrite const_fwd_lambda.
Qed.
Lemma gives_neg a : fit a -> gives (Ok (mk_neg Rnum a)) (fun i => - val i a).
Proof.
  intros H. unfold mk_neg. destruct a as [v|t|o a|o a b| | | | | | |]; try (apply (gives_fold UNeg); [exact H|discriminate]).
  destruct o; try (apply (gives_fold UNeg); [exact H|discriminate]).
  apply gives_ok; [exact H|]. intros i Hi. rewrite (val_un env UNeg a i H Hi). cbn. ring.
Qed.

Lemma const_is_R t v : const_is Rnum t v = true -> snd t = [v].
Proof. apply (const_is_true Rnum Rnum_laws). Qed.
Lemma at_const t v i : const_is Rnum t v = true -> at_ t i = v.
Proof. intros H. apply const_is_R in H. unfold at_. now rewrite H. Qed.

Definition nonzero_div (op : @uop R) (a : @expr R) : Prop :=
  match op with
  | UDivL _ => forall i, (i < n)%nat -> val i a <> 0
  | UDivR c => c <> 0
  | _ => True
  end.

Context (n_pos : (0 < n)%nat).

Lemma gives_unary op a : fit a -> op <> UAbs -> nonzero_div op a -> gives (mk_unary Rnum op a) (fun i => meaning Rnum op (val i a)).
Proof.
  intros H Ho Hd.
  assert (F : gives (Ok (fold_node Rnum op a)) (fun i => meaning Rnum op (val i a))) by now apply gives_fold.
  assert (Id : (forall x, meaning Rnum op x = x) -> gives (Ok a) (fun i => meaning Rnum op (val i a))).
  { intros HI. apply gives_ok; [exact H|]. intros i _. now rewrite HI. }
  assert (Ng : (forall x, meaning Rnum op x = - x) -> gives (Ok (mk_neg Rnum a)) (fun i => meaning Rnum op (val i a))).
  { intros HI. destruct (gives_neg a H) as (e & E1 & E2 & E3). exists e. split; [exact E1|]. split; [exact E2|]. intros i Hi. rewrite HI. now apply E3. }
  assert (K : forall t c, a = EConst t -> const_is Rnum t c = true -> forall v, meaning Rnum op c = v -> gives (Ok (EConst (const_scalar v))) (fun i => meaning Rnum op (val i a))).
  { intros t c -> Hc v Hv. apply gives_scalar. intros i Hi. rewrite val_const. now rewrite (at_const t c) by auto. }
  Ltac gu := repeat first
    [ assumption
    | match goal with
      | |- gives (Ok (EConst (const_scalar _))) _ =>
        match goal with
        | K : forall t c, _ = EConst t -> _, C : const_is Rnum ?t ?c = true |- _ => apply (K t c eq_refl C); cbn; lra
        end
      | |- gives (Ok (EConst (const_scalar _))) _ => apply gives_scalar; intros; cbn; lra
      | Id : _ -> gives (Ok ?a) _ |- gives (Ok ?a) _ => apply Id; intros; cbn; lra
      | Ng : _ -> gives (Ok (mk_neg Rnum ?a)) _ |- gives (Ok (mk_neg Rnum ?a)) _ => apply Ng; intros; cbn; lra
      | |- context [n_eqb Rnum ?x ?y] => let E := fresh "E" in destruct (n_eqb Rnum x y) eqn:E; [apply Reqb_iff in E; cbn in E; subst|]
      | |- context [const_is Rnum ?t ?v] => let E := fresh "C" in destruct (const_is Rnum t v) eqn:E; cbn [orb]
      end ].
  destruct op; try congruence; cbn [mk_unary]; try exact F.
  - apply (gives_neg a H).
  - destruct (n_eqb Rnum s0 (n_zero Rnum)) eqn:E.
    { apply Reqb_iff in E. cbn in E. subst. apply gives_scalar. intros i _. cbn. rewrite (Rpow_IZR _ 0). reflexivity. }
    destruct (n_eqb Rnum s0 (n_one Rnum)) eqn:E1; [|exact F]. apply Reqb_iff in E1. cbn in E1. subst. apply Id. intros x. cbn. rewrite (Rpow_IZR _ 1). apply pow_1.
  - destruct a; gu.
  - destruct a; gu.
  - destruct a; gu.
  - destruct a; gu.
  - destruct a; gu.
  - destruct a; gu.
  - destruct a; gu.
    exfalso. cbn [nonzero_div] in Hd. apply (Hd 0%nat n_pos). rewrite val_const. now apply at_const.
  - destruct a; gu; cbn in Hd; congruence.
Qed.

Lemma cview_ok a : match cview_of Rnum a with
  | CNone => True
  | CZero => forall i, val i a = 0
  | COne v => forall i, val i a = v
  end \/ ~ fit a.
Proof.
  destruct a as [v|t|o a|o a b| | | | | | |]; cbn [cview_of]; auto. destruct (const_is Rnum t (n_zero Rnum)) eqn:E.
  - left. intros i. rewrite val_const. now apply at_const.
  - destruct (one_elem t) eqn:O; auto. destruct (snd t) as [|v l] eqn:El; auto. apply Nat.eqb_eq in O.
    destruct l as [|y l]; [left; intros i; rewrite val_const; unfold at_; now rewrite El|]. right. intros H. apply gfit_const in H. destruct H as (_ & L & _). rewrite El in L. cbn in L. lia.
Qed.

Lemma gives_conv r f g : (forall i, (i < n)%nat -> f i = g i) -> gives r f -> gives r g.
Proof. intros H (e & E1 & E2 & E3). exists e. split; [exact E1|]. split; [exact E2|]. intros i Hi. rewrite <- H by auto. now apply E3. Qed.

Lemma gives_binary op a b : fit a -> fit b -> (op = BDiv -> forall i, (i < n)%nat -> val i b <> 0) ->
  gives (mk_binary Rnum same op a b) (fun i => bmeaning Rnum op (val i a) (val i b)).
Proof.
  intros Ha Hb Hd. pose proof (cview_ok a) as Va. pose proof (cview_ok b) as Vb.
  destruct Va as [Va|]; [|contradiction]. destruct Vb as [Vb|]; [|contradiction].
  assert (Bin : gives (Ok (EBin op a b)) (fun i => bmeaning Rnum op (val i a) (val i b))) by (apply gives_ok; [now split|]; intros i Hi; now apply val_bin).
  assert (U : forall o e, fit e -> o <> UAbs -> nonzero_div o e -> (forall i, (i < n)%nat -> meaning Rnum o (val i e) = bmeaning Rnum op (val i a) (val i b)) ->
    gives (mk_unary Rnum o e) (fun i => bmeaning Rnum op (val i a) (val i b))).
  { intros o e He Ho Hn Hm. eapply gives_conv; [exact Hm|]. now apply gives_unary. }
  destruct op; cbn [mk_binary].
  - destruct (cview_of Rnum a) eqn:Ea.
    + destruct (cview_of Rnum b) eqn:Eb; [exact Bin| |].
      * apply gives_ok; [exact Ha|]. intros i Hi. rewrite Vb. cbn. lra.
      * apply U; auto; try discriminate; try exact I. intros i Hi. rewrite Vb. reflexivity.
    + apply gives_ok; [exact Hb|]. intros i Hi. rewrite Va. cbn. lra.
    + apply U; auto; try discriminate; try exact I. intros i Hi. rewrite Va. reflexivity.
  - destruct (same a b) eqn:S. { apply same_ok in S. subst. apply gives_scalar. intros; cbn; lra. }
    destruct (cview_of Rnum a) eqn:Ea.
    + destruct (cview_of Rnum b) eqn:Eb; [exact Bin| |].
      * apply gives_ok; [exact Ha|]. intros i Hi. rewrite Vb. cbn. lra.
      * apply U; auto; try discriminate; try exact I. intros i Hi. rewrite Vb. reflexivity.
    + apply U; auto; try discriminate; try exact I. intros i Hi. rewrite Va. cbn. lra.
    + apply U; auto; try discriminate; try exact I. intros i Hi. rewrite Va. reflexivity.
  - destruct (same a b) eqn:S.
    { apply same_ok in S. subst. apply U; auto; try discriminate; try exact I. intros i Hi. cbn. rewrite (Rpow_IZR _ 2). change (powerRZ (val i b) 2) with (val i b ^ 2). ring. }
    destruct (cview_of Rnum a) eqn:Ea.
    + destruct (cview_of Rnum b) eqn:Eb; [exact Bin| |].
      * apply gives_scalar. intros i Hi. rewrite Vb. cbn. lra.
      * apply U; auto; try discriminate; try exact I. intros i Hi. rewrite Vb. reflexivity.
    + apply gives_scalar. intros i Hi. rewrite Va. cbn. lra.
    + apply U; auto; try discriminate; try exact I. intros i Hi. rewrite Va. reflexivity.
  - specialize (Hd eq_refl). destruct (same a b) eqn:S. { apply same_ok in S. subst. apply gives_scalar. intros i Hi. cbn. unfold Rdiv. apply Rinv_r. now apply Hd. }
    destruct (cview_of Rnum a) eqn:Ea.
    + destruct (cview_of Rnum b) eqn:Eb; [exact Bin| |].
      * exfalso. apply (Hd 0%nat n_pos). apply Vb.
      * apply U; auto; try discriminate; [cbn; rewrite <- (Vb 0%nat); now apply Hd|]. intros i Hi. rewrite Vb. reflexivity.
    + apply gives_scalar. intros i Hi. rewrite Va. cbn. unfold Rdiv. ring.
    + apply U; auto; try discriminate; try exact Hd. intros i Hi. rewrite Va. reflexivity.
Qed.

Lemma gives_bind r f (k : @expr R -> res (@expr R)) h : gives r f ->
  (forall e, fit e -> (forall i, (i < n)%nat -> val i e = f i) -> gives (k e) h) -> gives (bind r k) h.
Proof. intros (e & -> & E2 & E3) H. cbn [bind]. now apply H. Qed.

Definition all_smooth (op : @uop R) (a : @expr R) : Prop := forall i, (i < n)%nat -> smooth_at op (val i a).

Ltac gb := eapply gives_bind; [first [apply gives_unary|apply gives_binary]; auto; try discriminate; try exact I|].

Lemma gives_back_unary op a g : fit a -> fit g -> all_smooth op a ->
  gives (back_unary Rnum same op a g) (fun i => slope op (val i a) * val i g).
Proof.
  intros Ha Hg Hs. unfold all_smooth in Hs.
  assert (Neg : gives (mk_unary Rnum UNeg g) (fun i => - 1 * val i g)).
  { eapply gives_conv; [|apply gives_unary; auto; try discriminate; try exact I]. intros; cbn; lra. }
  assert (Same : gives (Ok g) (fun i => 1 * val i g)) by (apply gives_ok; [exact Hg|intros; lra]).
  destruct op; cbn [smooth_at] in Hs; try (exfalso; exact (Hs 0%nat n_pos)); cbn [back_unary slope]; auto.
  - gb. intros c Hc Ec. eapply gives_conv; [|apply gives_binary; auto; discriminate]. intros i Hi. cbv beta. rewrite Ec by auto. cbn. ring.
  - gb. intros c Hc Ec. gb. intros d Hd Ed. eapply gives_conv; [|apply gives_binary; auto; discriminate]. intros i Hi. cbv beta. rewrite Ec, Ed by auto. cbn. ring.
  - gb. intros c Hc Ec. gb. intros d Hd Ed. eapply gives_conv; [|apply gives_binary; auto].
    + intros i Hi. cbv beta. rewrite Ed, Ec by auto. cbn. unfold Rdiv. ring.
    + intros _ i Hi. cbv beta. rewrite Ed, Ec by auto. cbn. specialize (Hs i Hi). now apply Rmult_integral_contrapositive.
  - gb. intros c Hc Ec. gb. intros d Hd Ed. gb. intros e He Ee. gb. intros f Hf Ef. eapply gives_conv; [|apply gives_binary; auto].
    + intros i Hi. cbv beta. rewrite Ef, Ee, Ed, Ec by auto. cbn. unfold Rdiv. ring.
    + intros _ i Hi. cbv beta. rewrite Ef, Ee, Ed by auto. cbn. destruct (Hs i Hi). unfold tan. apply Rmult_integral_contrapositive. split; auto.
      apply Rmult_integral_contrapositive. split; [auto|now apply Rinv_neq_0_compat].
  - gb. intros c Hc Ec. gb. intros d Hd Ed. gb. intros e He Ee. eapply gives_conv; [|apply gives_binary; auto].
    + intros i Hi. cbv beta. rewrite Ee, Ed, Ec by auto. cbn. unfold Rdiv. ring.
    + intros _ i Hi. cbv beta. rewrite Ee by auto. cbn. now apply Hs.
  - gb. intros c Hc Ec. gb. intros d Hd Ed. gb. intros e He Ee. eapply gives_conv; [|apply gives_binary; auto; discriminate].
    intros i Hi. cbv beta. rewrite Ee, Ed, Ec by auto. cbn. unfold Rdiv. ring.
  - gb. intros c Hc Ec. eapply gives_conv; [|apply gives_binary; auto; discriminate]. intros i Hi. cbv beta. rewrite Ec by auto. cbn. ring.
  - gb. intros c Hc Ec. gb. intros d Hd Ed. eapply gives_conv; [|apply gives_binary; auto].
    + intros i Hi. cbv beta. rewrite Ed, Ec by auto. cbn. unfold Rdiv. ring.
    + intros _ i Hi. cbv beta. rewrite Ed, Ec by auto. cbn. pose proof (sqrt_lt_R0 _ (Hs i Hi)). lra.
  - eapply gives_conv; [|apply gives_binary; auto].
    + intros i Hi. cbn. unfold Rdiv. ring.
    + intros _ i Hi. specialize (Hs i Hi). lra.
  - gb. intros c Hc Ec. gb. intros d Hd Ed. eapply gives_conv; [|apply gives_binary; auto; discriminate].
    intros i Hi. cbv beta. rewrite Ed, Ec by auto. cbn. ring.
  - eapply gives_conv; [|apply gives_unary; auto; try discriminate; try exact I]. intros i Hi. cbn. ring.
  - eapply gives_conv; [|apply gives_unary; auto; try discriminate; try exact I]. intros i Hi. cbn. ring.
  - gb. intros c Hc Ec. gb. intros d Hd Ed. eapply gives_conv; [|apply gives_binary; auto].
    + intros i Hi. cbv beta. rewrite Ed, Ec by auto. cbn. unfold Rdiv. ring.
    + intros _ i Hi. cbv beta. rewrite Ed by auto. cbn. specialize (Hs i Hi). now apply Rmult_integral_contrapositive.
  - eapply gives_conv; [|apply gives_unary; auto; try discriminate]. + intros i Hi. cbn. unfold Rdiv. ring. + cbn. exact (Hs 0%nat n_pos).
Qed.

Definition bslope (op : bop) (x y gx gy : R) : R :=
  match op with
  | BAdd => gx + gy
  | BSub => gx - gy
  | BMul => gx * y + x * gy
  | BDiv => (gx * y - gy * x) / (y * y)
  end.

Lemma gives_back_binary op a b ag bg : fit a -> fit b -> fit ag -> fit bg -> (op = BDiv -> forall i, (i < n)%nat -> val i b <> 0) ->
  gives (back_binary Rnum same op a b ag bg) (fun i => bslope op (val i a) (val i b) (val i ag) (val i bg)).
Proof.
  intros Ha Hb Hag Hbg Hd. destruct op; cbn [back_binary bslope].
  - apply (gives_binary BAdd); auto; discriminate.
  - apply (gives_binary BSub); auto; discriminate.
  - gb. intros c Hc Ec. gb. intros d Hd' Ed. eapply gives_conv; [|apply gives_binary; auto; discriminate]. intros i Hi. cbv beta. rewrite Ec, Ed by auto. cbn. ring.
  - gb. intros c Hc Ec. gb. intros d Hd' Ed. gb. intros e He Ee. gb. intros f Hf Ef. eapply gives_conv; [|apply gives_binary; auto].
    + intros i Hi. cbv beta. rewrite Ef, Ee, Ed, Ec by auto. reflexivity.
    + intros _ i Hi. cbv beta. rewrite Ef by auto. cbn. specialize (Hd eq_refl i Hi). now apply Rmult_integral_contrapositive.
Qed.


Lemma eval_ext e1 e2 e : (forall v, has_leaf v e = true -> e1 v = e2 v) -> eval Rnum fresh use e1 e = eval Rnum fresh use e2 e.
Proof.
  induction e as [v|t|o a IH|o a IHa b IHb|a IHa b IHb|a IH|a IH|a IH|ax a IH|tA tB a IHa b IHb|ax a IHa b IHb]; intros H; cbn [eval];
    try (rewrite IH by (intros v Hv; apply H; exact Hv); reflexivity);
    try (rewrite IHa, IHb by (intros v Hv; apply H; cbn; rewrite Hv; auto using orb_true_r); reflexivity).
  - f_equal. apply H. cbn. apply Nat.eqb_refl.
  - reflexivity.
Qed.

Lemma inherit_none_term j : terminal (inherit same None j) = false.
Proof. destruct j as [[u [|x l] t]|]; reflexivity. Qed.

(** ---- derivatives along a change of one element of a variable ---- *)
Section Tangent.
Context (w k : nat) (T : nat -> R).
Notation envr r := (set_elem env w k r).
Notation r0 := (at_ (env w) k).
Context (env0 : forall v, envr r0 v = env v).

(** the derivative of the node at every position is its gradient node's value times T *)
Definition tangent (e : @expr R) : Prop :=
  (forall r, gfit (envr r) e) /\
  exists g, grad Rnum fresh use same env w e = Ok g /\ fit g /\
    forall i, (i < n)%nat -> derivable_pt_lim (fun r => nval (envr r) i e) r0 (val i g * T i).

Fixpoint atoms (P : @expr R -> Prop) (e : @expr R) : Prop :=
  match e with
  | EUn _ a => atoms P a
  | EBin _ a b => atoms P a /\ atoms P b
  | _ => P e
  end.
Fixpoint vregular (e : @expr R) : Prop :=
  match e with
  | EUn op a => vregular a /\ all_smooth op a
  | EBin op a b => vregular a /\ vregular b /\ (op = BDiv -> forall i, (i < n)%nat -> val i b <> 0)
  | _ => True
  end.
Fixpoint noterm (e : @expr R) : Prop :=
  match e with
  | EUn op a => noterm a
  | EBin op a b => noterm a /\ noterm b /\ terminal (snd (info Rnum fresh use same env w e)) = false
  | _ => True
  end.

Lemma nval_r0 i e : nval (envr r0) i e = val i e.
Proof. unfold nval. f_equal. apply eval_ext. intros v _. apply env0. Qed.
Lemma gfit_r0 e : (forall r, gfit (envr r) e) -> fit e.
Proof.
  intros H. specialize (H r0). revert H. induction e as [v|t|o a IH|o a IHa b IHb| | | | | | |]; cbn [gfit]; auto;
    try (intros (t' & E & F); exists t'; split; [|exact F]; rewrite <- E; apply eval_ext; intros; symmetry; apply env0).
  intros [Ha Hb]. auto.
Qed.

Lemma no_leaf_const e i : has_leaf w e = false -> derivable_pt_lim (fun r => nval (envr r) i e) r0 0.
Proof.
  intros H. apply (lim_ext (fct_cte (val i e))); [|apply derivable_pt_lim_const]. intros r. unfold fct_cte, nval. f_equal. apply eval_ext.
  intros v Hv. unfold set_elem. destruct (Nat.eqb_spec v w); [subst; congruence|reflexivity].
Qed.

Lemma tangent_elem e : atoms tangent e -> vregular e -> noterm e -> tangent e.
Proof.
  induction e as [v|t|op a IH|op a IHa b IHb| | | | | | |]; cbn [atoms vregular noterm]; try (intros H _ _; exact H).
  - intros Ha [Hr Hs] Ht. destruct (IH Ha Hr Ht) as (Fa & g & G1 & G2 & G3).
    assert (Fa0 : fit a) by now apply gfit_r0.
    split; [exact Fa|]. unfold grad in *. cbn [info fst snd]. rewrite inherit_none_term.
    destruct (has_leaf w a) eqn:L.
    + rewrite G1. cbn [bind]. destruct (gives_back_unary op a g Fa0 G2 Hs) as (g' & E1 & E2 & E3).
      exists g'. split; [exact E1|]. split; [exact E2|]. intros i Hi. rewrite E3 by exact Hi.
      apply (lim_val _ _ (slope op (val i a) * (val i g * T i))); [ring|].
      apply (lim_ext (comp (meaning Rnum op) (fun r => nval (envr r) i a))); [intros r; symmetry; now apply val_un|].
      apply derivable_pt_lim_comp; [now apply G3|]. cbv beta. rewrite nval_r0. apply slope_ok. now apply Hs.
    + eexists. split; [reflexivity|]. split; [apply gfit_const_intro, fits_scalar|]. intros i Hi. rewrite val_const, at_scalar.
      apply (lim_val _ _ 0); [cbn; ring|]. now apply (no_leaf_const (EUn op a)).
  - intros [Aa Ab] (Ra & Rb & Hd) (Ta & Tb & Ht).
    destruct (IHa Aa Ra Ta) as (Fa & ga & GA1 & GA2 & GA3). destruct (IHb Ab Rb Tb) as (Fb & gb & GB1 & GB2 & GB3).
    assert (Fa0 : fit a) by now apply gfit_r0. assert (Fb0 : fit b) by now apply gfit_r0.
    split; [intros r; now split|]. unfold grad in *. cbn [info fst snd] in *. rewrite Ht.
    destruct (has_leaf w a || has_leaf w b) eqn:L.
    + rewrite GA1, GB1. cbn [bind]. destruct (gives_back_binary op a b ga gb Fa0 Fb0 GA2 GB2 Hd) as (g' & E1 & E2 & E3).
      exists g'. split; [exact E1|]. split; [exact E2|]. intros i Hi. rewrite E3 by exact Hi.
      specialize (GA3 i Hi). specialize (GB3 i Hi).
      set (fa := fun r => nval (envr r) i a) in *. set (fb := fun r => nval (envr r) i b) in *.
      assert (Ea : fa r0 = val i a) by apply nval_r0. assert (Eb : fb r0 = val i b) by apply nval_r0.
      assert (Ev : forall r, nval (envr r) i (EBin op a b) = bmeaning Rnum op (fa r) (fb r)) by (intros r; now apply val_bin).
      destruct op; cbn [bslope]; cbn [bmeaning] in Ev.
      * apply (lim_ext (plus_fct fa fb)); [intros r; now rewrite Ev|]. eapply lim_val; [|apply derivable_pt_lim_plus; eassumption]. ring.
      * apply (lim_ext (minus_fct fa fb)); [intros r; now rewrite Ev|]. eapply lim_val; [|apply derivable_pt_lim_minus; eassumption]. ring.
      * apply (lim_ext (mult_fct fa fb)); [intros r; now rewrite Ev|]. eapply lim_val; [|apply derivable_pt_lim_mult; eassumption]. rewrite Ea, Eb. ring.
      * apply (lim_ext (div_fct fa fb)); [intros r; now rewrite Ev|]. specialize (Hd eq_refl i Hi).
        eapply lim_val; [|apply derivable_pt_lim_div; [eassumption|eassumption|rewrite Eb; exact Hd]]. rewrite Ea, Eb. unfold Rsqr. field. exact Hd.
    + eexists. split; [reflexivity|]. split; [apply gfit_const_intro, fits_scalar|]. intros i Hi. rewrite val_const, at_scalar.
      apply (lim_val _ _ 0); [cbn; ring|]. now apply (no_leaf_const (EBin op a b)).
Qed.

(** leaves *)
Lemma tangent_const t : fits s t -> tangent (EConst t).
Proof.
  intros H. split; [intros r; now apply gfit_const_intro|]. eexists. split; [reflexivity|]. split; [apply gfit_const_intro, fits_scalar|].
  intros i Hi. rewrite val_const, at_scalar. apply (lim_val _ _ 0); [cbn; ring|]. now apply (no_leaf_const (EConst t)).
Qed.
Lemma tangent_other v : v <> w -> fits s (env v) -> tangent (EVar v).
Proof.
  intros Hv H. assert (E : forall r, envr r v = env v) by (intros r; unfold set_elem; destruct (Nat.eqb_spec v w); congruence).
  split; [intros r; exists (env v); split; [cbn; now rewrite E|exact H]|]. eexists. split; [cbn; reflexivity|].
  destruct (Nat.eqb_spec v w); [congruence|]. split; [apply gfit_const_intro, fits_scalar|].
  intros i Hi. rewrite val_const, at_scalar. apply (lim_val _ _ 0); [cbn; ring|]. apply (no_leaf_const (EVar v)). cbn. now apply Nat.eqb_neq.
Qed.
End Tangent.
End Val.

(** ---- changing one element of a variable ---- *)
Lemma set_elem_fits s env w i r : fits s (env w) -> fits s (set_elem env w i r w).
Proof.
  intros (F & L & H). unfold set_elem. rewrite Nat.eqb_refl. split; [exact F|]. split; [|exact H]. cbn [fst snd].
  destruct (snd (env w)) as [|x [|y l]] eqn:E; rewrite ?length_set_nth; exact L.
Qed.
Lemma set_elem_other env w i r v : v <> w -> set_elem env w i r v = env v.
Proof. intros H. unfold set_elem. destruct (Nat.eqb_spec v w); congruence. Qed.
Lemma set_elem_same s env w k v : fits s (env w) -> (k < n_elems s)%nat -> set_elem env w k (at_ (env w) k) v = env v.
Proof.
  intros (F & L & H) Hk. unfold set_elem. destruct (Nat.eqb_spec v w) as [->|]; [|reflexivity]. destruct (env w) as [sh d]. cbn [fst snd] in *. f_equal. unfold at_. cbn [snd].
  destruct d as [|x [|y l]]; [destruct k; reflexivity|reflexivity|]. destruct H as [H|H]; [|cbn in L; lia]. subst sh.
  apply nth_error_ext_lt; [apply length_set_nth|]. intros j Hj. rewrite length_set_nth in Hj. destruct (Nat.eq_dec k j) as [->|Hkj].
  - rewrite nth_error_set_nth_eq by auto. symmetry. now apply nth_error_nth'.
  - now rewrite nth_error_set_nth_neq.
Qed.
Lemma set_elem_at_self s env w i r : fits s (env w) -> (i < n_elems s)%nat -> at_ (set_elem env w i r w) i = r.
Proof.
  intros (F & L & H) Hi. unfold set_elem. rewrite Nat.eqb_refl. unfold at_. cbn [snd]. destruct (snd (env w)) as [|x [|y l]] eqn:E.
  - exfalso. cbn in L. destruct H as [H|H]; [rewrite H in L|]; lia.
  - reflexivity.
  - destruct H as [H|H]; [|cbn in L; lia]. rewrite H in L.
    assert (Ln : length (set_nth i r (x :: y :: l)) = length (x :: y :: l)) by apply length_set_nth.
    assert (Hn : nth_error (set_nth i r (x :: y :: l)) i = Some r) by (apply nth_error_set_nth_eq; lia).
    destruct (set_nth i r (x :: y :: l)) as [|a [|b m]]; cbn in Ln; try lia. now apply nth_error_nth.
Qed.
Lemma set_elem_at_other env w i j r v : length (snd (env w)) <> 1%nat -> i <> j -> at_ (set_elem env w j r v) i = at_ (env v) i.
Proof.
  intros H Hij. destruct (Nat.eq_dec v w) as [->|]; [|now rewrite set_elem_other]. unfold set_elem. rewrite Nat.eqb_refl.
  rewrite !at_nth; cbn [snd]; auto.
  - destruct (snd (env w)) as [|x [|y l]] eqn:E; [destruct j; reflexivity|cbn in H; congruence|].
    destruct (Nat.lt_ge_cases i (length (x :: y :: l))) as [Hi|Hi].
    + apply nth_error_nth. rewrite nth_error_set_nth_neq by auto. now apply nth_error_nth'.
    + rewrite !nth_overflow; auto. now rewrite length_set_nth.
  - destruct (snd (env w)) as [|x [|y l]] eqn:E; rewrite ?length_set_nth; exact H.
Qed.
Lemma set_elem_leaves s env w i r e : fits s (env w) -> leaves_fit s env e -> leaves_fit s (set_elem env w i r) e.
Proof.
  intros Hw. induction e as [v|t|o a IH|o a IHa b IHb| | | | | | |]; cbn [leaves_fit]; auto; [|intros [Ha Hb]; auto].
  intros H. destruct (Nat.eq_dec v w) as [->|]; [now apply set_elem_fits|]. now rewrite set_elem_other.
Qed.

(** the variable itself: T is its own derivative *)
Lemma tangent_self fresh use s env same w k T : fits s (env w) ->
  (forall i, (i < n_elems s)%nat -> derivable_pt_lim (fun r => at_ (set_elem env w k r w) i) (at_ (env w) k) (T i)) ->
  tangent fresh use s env same w k T (EVar w).
Proof.
  intros F H. split; [intros r; exists (set_elem env w k r w); split; [reflexivity|now apply set_elem_fits]|].
  exists (EConst (const_scalar 1)). split; [unfold grad; cbn; now rewrite Nat.eqb_refl|]. split; [apply gfit_const_intro, fits_scalar|].
  intros i Hi. rewrite val_const, at_scalar. apply (lim_val _ _ (T i)); [ring|]. exact (H i Hi).
Qed.

(** elementwise expressions have no Jacobian lists *)
Lemma elem_no_jac fresh use same s env w e : leaves_fit s env e -> snd (info Rnum fresh use same env w e) = None.
Proof.
  induction e as [v|t|o a IH|o a IHa b IHb| | | | | | |]; cbn [leaves_fit info snd]; try contradiction; auto.
  - intros H. now rewrite IH.
  - intros [Ha Hb]. now rewrite IHa, IHb.
Qed.
Lemma elem_noterm fresh use same s env w e : leaves_fit s env e -> noterm fresh use env same w e.
Proof.
  intros H. induction e as [v|t|o a IH|o a IHa b IHb| | | | | | |]; cbn [leaves_fit noterm] in *; try contradiction; auto.
  pose proof (elem_no_jac fresh use same s env w (EBin o a b) H) as E. destruct H as [Ha Hb]. split; auto. split; auto. now rewrite E.
Qed.
Lemma regular_v fresh use s env e : leaves_fit s env e -> (forall i, (i < n_elems s)%nat -> regular i (fun v => at_ (env v) i) e) -> vregular fresh use s env e.
Proof.
  intros H R. induction e as [v|t|o a IH|o a IHa b IHb| | | | | | |]; cbn [leaves_fit vregular] in *; try contradiction; auto.
  - split; [apply IH; auto; intros i Hi; apply (R i Hi)|]. intros i Hi. rewrite (val_den fresh use s) by auto. apply (R i Hi).
  - destruct H as [Ha Hb]. split; [apply IHa; auto; intros i Hi; apply (R i Hi)|]. split; [apply IHb; auto; intros i Hi; apply (R i Hi)|].
    intros Ho i Hi. rewrite (val_den fresh use s) by auto. now apply (R i Hi).
Qed.
Lemma leaves_atoms s env (P : @expr R -> Prop) e : leaves_fit s env e -> (forall v, has_leaf v e = true -> fits s (env v) -> P (EVar v)) -> (forall t, fits s t -> P (EConst t)) -> atoms P e.
Proof.
  induction e as [v|t|o a IH|o a IHa b IHb| | | | | | |]; cbn [leaves_fit atoms]; try contradiction; auto.
  - intros H H1 _. apply H1; [cbn; apply Nat.eqb_refl|exact H].
  - intros [Ha Hb] H1 H2. split; [apply IHa|apply IHb]; auto; intros v Hv; apply H1; cbn; rewrite Hv; auto using orb_true_r.
Qed.
