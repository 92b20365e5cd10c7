(** C59: the gradients followed when a restricted Boltzmann machine is trained. *)
From Coq Require Import String Reals Lra Lia.
From Verif Require Import Common CseModel CseSpec ShapeModel ShapeSpec ShapeProofs TransformSpec TransformModel TransformProofs TransformLaws FitModel FitProofs MatmulSpec MatmulModel MatmulProofs Matmul2Proofs MatmulLaws ElemSpec ElemModel ElemProofs NumSpec RealNum ElemLaws GradModel GradProofs MatrixSpec MatrixProofs LeafModel LeafProofs LeafLaws MlpSpec MlpModel MlpProofs MlpLaws MeanLaws RbmSpec RbmModel RbmLaws GroupModel GroupProofs RbmTrainModel RbmCalc RbmTrainProofs RbmTrainValues RbmTrainCost.
From Verif Require Import GradSpec RbmTrainSpec.
From Verif Require NetProofs NetLaws CrossCorrProofs TrainSpec.
Local Open Scope list_scope.

Lemma set_nth_val env v k x j : k < length (snd (env v)) -> nth j (snd (set_elem env v k x v)) 0%R = upd1 (fun j => nth j (snd (env v)) 0%R) k x j.
Proof.
  intros Hk. unfold set_elem, upd1. rewrite Nat.eqb_refl. cbn [snd]. destruct (snd (env v)) as [|a [|b l]] eqn:E; [cbn in Hk; lia| |].
  - cbn in Hk. assert (k = 0) as -> by lia. destruct j as [|[|j]]; reflexivity.
  - destruct (Nat.eqb_spec j k) as [->|Hj]; [apply CrossCorrProofs.nth_set_same; auto|]. now apply CrossCorrProofs.nth_set_other.
Qed.
Lemma set_len env v k x : length (snd (set_elem env v k x v)) = length (snd (env v)) /\ fst (set_elem env v k x v) = fst (env v).
Proof. unfold set_elem. rewrite Nat.eqb_refl. cbn [fst snd]. split; [|reflexivity]. destruct (snd (env v)) as [|a [|b l]]; rewrite ?length_set_nth; reflexivity. Qed.
Lemma set_matrix env v k x c r p : matrix c r (env p) -> matrix c r (set_elem env v k x p).
Proof.
  intros M. destruct (Nat.eq_dec p v) as [->|Hp]; [|now rewrite set_elem_other]. destruct (set_len env v k x) as [L S]. destruct M as (A & B & C & D). repeat split; auto; congruence.
Qed.
Lemma set_vector env v k x c p : vector c (env p) -> vector c (set_elem env v k x p).
Proof.
  intros M. destruct (Nat.eq_dec p v) as [->|Hp]; [|now rewrite set_elem_other]. destruct (set_len env v k x) as [L S]. destruct M as (A & B & C). repeat split; auto; congruence.
Qed.
Lemma energy_par n h W W' hb hb' vb vb' v : (forall j q, j < h -> q < n -> W j q = W' j q) -> (forall j, j < h -> hb j = hb' j) -> (forall q, q < n -> vb q = vb' q) ->
  energy n h W hb vb v = energy n h W' hb' vb' v.
Proof.
  intros H1 H2 H3. unfold energy. f_equal. f_equal.
  - apply sumn_ext. intros j Hj. do 3 f_equal. rewrite H2 by auto. f_equal. apply sumn_ext. intros q Hq. now rewrite H1.
  - apply sumn_ext. intros q Hq. now rewrite H3.
Qed.

Lemma k_split k c r : 0 < c -> k < c * r -> k = k mod c + c * (k / c) /\ k mod c < c /\ k / c < r.
Proof. intros Hc Hk. split; [rewrite Nat.add_comm; apply Nat.div_mod; lia|]. split; [apply Nat.mod_upper_bound; lia|]. apply Nat.div_lt_upper_bound; lia. Qed.
Lemma grid_eq c x y x' y' : x < c -> x' < c -> x + c * y = x' + c * y' -> x = x' /\ y = y'.
Proof. intros H H' E. assert (y = y') by nia. subst. split; [lia|reflexivity]. Qed.

Section P.
Context (fresh : nat -> R) (use : bool) (gsame : @gexpr R -> @gexpr R -> bool).
Context (gs : forall a b, gsame a b = true -> a = b).
Context (w hb vb : nat) (Nwh : w <> hb) (Nwv : w <> vb) (Nhv : hb <> vb) (n h : nat).
Notation gev := (geval Rnum fresh use INR).
Notation ev := (eval Rnum fresh use).
Notation nM := (nM w hb vb).
Notation der env v := (gderive Rnum fresh use INR gsame env v).
Context (env : nat -> tens R) (Mw : matrix h n (env w)) (Mh : vector h (env hb)) (Mv : vector n (env vb)).
Context (b1 b2 : nat) (e1 e2 : @expr R) (t1 t2 : tens R) (Ne : e1 <> e2).
Context (E1 : ev env e1 = Ok t1) (M1 : matrix n b1 t1) (E2 : ev env e2 = Ok t2) (M2 : matrix n b2 t2).
Context (T1 : exists t', ev env (mk_tr e1) = Ok t' /\ matrix b1 n t' /\ forall x y, x < b1 -> y < n -> entry 0%R b1 t' x y = entry 0%R n t1 y x).
Context (T2 : exists t', ev env (mk_tr e2) = Ok t' /\ matrix b2 n t' /\ forall x y, x < b2 -> y < n -> entry 0%R b2 t' x y = entry 0%R n t2 y x).
Context (F1 : forall v, In v [w; hb; vb] -> has_leaf v e1 = false) (F2 : forall v, In v [w; hb; vb] -> has_leaf v e2 = false).
Notation Wf env := (entry 0%R h (env w)).
Notation Hf env := (fun j => nth j (snd (env hb)) 0%R).
Notation Vf env := (fun q => nth q (snd (env vb)) 0%R).
Notation s1 y := (fun q => entry 0%R n t1 q y).
Notation s2 y := (fun q => entry 0%R n t2 q y).
Notation cost := (GBin BSub (nM e1) (nM e2)).
Notation en env' := (energy n h (Wf env') (Hf env') (Vf env')).

Lemma cost_val env' : matrix h n (env' w) -> vector h (env' hb) -> vector n (env' vb) -> ev env' e1 = Ok t1 -> ev env' e2 = Ok t2 ->
  gev env' cost = Ok ([1], [(mean b1 (fun y => en env' (s1 y)) - mean b2 (fun y => en env' (s2 y)))%R]).
Proof.
  intros A B C D1 D2. cbn [geval]. rewrite (val_M fresh use w hb vb n h env' A B C b1 e1 t1 D1 M1), (val_M fresh use w hb vb n h env' A B C b2 e2 t2 D2 M2). cbn [bind]. cbn [sem].
  match goal with |- forward_pass _ _ _ [?x; ?y] _ = _ => destruct (binary_ok fresh (bop_lambda Rnum BSub) x y) as [H _]; [split; reflexivity|split; reflexivity|] end.
  rewrite H by now left. reflexivity.
Qed.
Lemma cost_elem v k x : In v [w; hb; vb] ->
  elem (gev (set_elem env v k x) cost) 0 = (mean b1 (fun y => en (set_elem env v k x) (s1 y)) - mean b2 (fun y => en (set_elem env v k x) (s2 y)))%R.
Proof.
  intros Hv. rewrite cost_val; [reflexivity|now apply set_matrix|now apply set_vector|now apply set_vector| |]; rewrite NetProofs.free_eval; auto.
Qed.
Lemma lim_cost v k (f : R -> (nat -> R) -> R) (d1 d2 : nat -> R) x0 : In v [w; hb; vb] ->
  (forall x s, en (set_elem env v k x) s = f x s) ->
  (forall y, y < b1 -> derivable_pt_lim (fun x => f x (s1 y)) x0 (d1 y)) -> (forall y, y < b2 -> derivable_pt_lim (fun x => f x (s2 y)) x0 (d2 y)) ->
  derivable_pt_lim (fun x => elem (gev (set_elem env v k x) cost) 0) x0 (mean b1 d1 - mean b2 d2)%R.
Proof.
  intros Hv Hf H1 H2. apply (lim_ext (minus_fct (fun x => mean b1 (fun y => f x (s1 y))) (fun x => mean b2 (fun y => f x (s2 y))))).
  - intros x. unfold minus_fct. rewrite (cost_elem v k x Hv). f_equal; apply mean_ext; intros y Hy; now rewrite Hf.
  - apply derivable_pt_lim_minus; [apply (lim_mean b1 (fun y x => f x (s1 y)) d1)|apply (lim_mean b2 (fun y x => f x (s2 y)) d2)]; auto.
Qed.

Lemma all_grad v : In v [w; hb; vb] -> exists Y y, der env v cost = Ok Y /\ match Y with GConst _ => False | GUn _ _ => False | _ => True end /\ gev env Y = Ok y /\
  is_fully_defined (fst y) = true /\ length (snd y) = n_elems (fst y) /\
  gradient_of (fun e => gev e cost) env v y.
Proof.
  intros Iv. assert (Hn : 0 < n) by apply Mv. assert (Hh : 0 < h) by apply Mh. pose proof Iv as [<-|[<-|[<-|[]]]].
  - destruct (main_W fresh use gsame gs w hb vb Nwh Nwv Nhv n h env Mw Mh Mv b1 b2 e1 e2 t1 t2 Ne E1 M1 E2 M2 T1 T2 F1 F2) as (Y & y & D & Nc & Ev & My & Hy).
    exists Y, y. split; [exact D|]. split; [exact Nc|]. split; [exact Ev|]. split; [now apply (matrix_def _ _ _ My)|]. split; [rewrite (matrix_n _ _ _ My); apply My|].
    pose proof Mw as (_ & _ & Lw & _). pose proof My as (_ & _ & Ly & _).
    split; [congruence|]. intros k Hk. rewrite Lw in Hk. destruct (k_split k h n Hh Hk) as (Ek & Hj & Hq). set (j0 := k mod h) in *. set (q0 := k / h) in *.
    replace (GradSpec.at_ (env w) k) with (Wf env j0 q0) by (rewrite Ek at 1; symmetry; now apply (NetProofs.at_entry h n)).
    replace (GradSpec.at_ y k) with (entry 0%R h y j0 q0) by (rewrite Ek at 1; symmetry; now apply (NetProofs.at_entry h n)).
    rewrite Hy by auto.
    apply (lim_cost w k (fun x s => energy n h (fun j q => if j =? j0 then upd1 (Wf env j) q0 x q else Wf env j q) (Hf env) (Vf env) s)); auto.
    + intros x s. apply energy_par.
      * intros j q Hj' Hq'. unfold entry. rewrite set_nth_val by (rewrite Lw; exact Hk). unfold upd1.
        destruct (Nat.eqb_spec (j + h * q) k) as [E|E].
        -- rewrite Ek in E. apply grid_eq in E as [-> ->]; auto. now rewrite !Nat.eqb_refl.
        -- destruct (Nat.eqb_spec j j0) as [->|]; [|reflexivity]. destruct (Nat.eqb_spec q q0) as [->|]; [lia|reflexivity].
      * intros j _. now rewrite set_elem_other by auto.
      * intros q _. now rewrite set_elem_other by auto.
    + intros y' _. exact (energy_W n h (Wf env) (Hf env) (Vf env) _ j0 q0 Hj Hq).
    + intros y' _. exact (energy_W n h (Wf env) (Hf env) (Vf env) _ j0 q0 Hj Hq).
  - destruct (main_H fresh use gsame gs w hb vb Nwh Nwv Nhv n h env Mw Mh Mv b1 b2 e1 e2 t1 t2 Ne E1 M1 E2 M2 F1 F2) as (Y & y & D & Nc & Ev & My & Hy).
    pose proof Mh as (_ & _ & Lw). pose proof My as (_ & Sy & Ly).
    exists Y, y. split; [exact D|]. split; [exact Nc|]. split; [exact Ev|]. split; [rewrite Sy; cbn; destruct h; [lia|reflexivity]|]. split; [rewrite Sy, Ly; cbn; lia|].
    split; [congruence|]. intros k Hk. rewrite Lw in Hk.
    rewrite (at_nth' (env hb) k h), (at_nth' y k h) by auto. rewrite Hy by auto.
    apply (lim_cost hb k (fun x s => energy n h (Wf env) (upd1 (Hf env) k x) (Vf env) s)); auto.
    + intros x s. apply energy_par.
      * intros j q Hj' Hq'. now rewrite set_elem_other by auto.
      * intros j _. apply set_nth_val. lia.
      * intros q _. now rewrite set_elem_other by auto.
    + intros y' _. now apply (energy_hb n h (Wf env) (Hf env) (Vf env)).
    + intros y' _. now apply (energy_hb n h (Wf env) (Hf env) (Vf env)).
  - destruct (main_V fresh use gsame gs w hb vb Nwh Nwv Nhv n h env Mw Mh Mv b1 b2 e1 e2 t1 t2 Ne E1 M1 E2 M2 T1 T2 F1 F2) as (Y & y & D & Nc & Ev & My & Hy).
    pose proof Mv as (_ & _ & Lw). pose proof My as (_ & _ & Ly & Sy). rewrite Nat.mul_1_r in Ly.
    exists Y, y. split; [exact D|]. split; [exact Nc|]. split; [exact Ev|]. split; [now apply (matrix_def _ _ _ My)|]. split; [rewrite (matrix_n _ _ _ My); apply My|].
    split; [congruence|]. intros k Hk. rewrite Lw in Hk.
    rewrite (at_nth' (env vb) k n), (at_nth' y k n) by auto.
    replace (nth k (snd y) 0%R) with (entry 0%R n y k 0) by (unfold entry; f_equal; lia). rewrite Hy by auto.
    apply (lim_cost vb k (fun x s => energy n h (Wf env) (Hf env) (upd1 (Vf env) k x) s)); auto.
    + intros x s. apply energy_par.
      * intros j q Hj' Hq'. now rewrite set_elem_other by auto.
      * intros j _. now rewrite set_elem_other by auto.
      * intros q _. apply set_nth_val. lia.
    + intros y' _. exact (energy_vb n h (Wf env) (Hf env) (Vf env) (s1 y') k Hk).
    + intros y' _. exact (energy_vb n h (Wf env) (Hf env) (Vf env) (s2 y') k Hk).
Qed.
End P.

Lemma rbm_new_distinct {T} (N : num T) of_nat n h scope st m st' w hb vb : rbm_new N of_nat n h scope st = (m, st') ->
  r_w m = Some w -> r_hb m = Some hb -> r_vb m = Some vb -> w <> hb /\ w <> vb /\ hb <> vb.
Proof.
  unfold rbm_new. cbn [alloc]. intros [= <- _]. cbn [r_w r_hb r_vb]. intros [= <-] [= <-] [= <-]. rewrite !app_length. cbn [length]. lia.
Qed.

(** The cost that train follows has, with respect to each of the machine's three variables, a
    gradient node, and its value holds the partial derivatives of the cost by every element of
    that variable. *)
Lemma C59_training_gradient_lemma :
  forall (of_nat : nat -> R) same fresh use (env : nat -> tens R) (n h b b' : nat) scope st m st',
    (forall x y, same x y = true -> x = y) -> 0 < n -> 0 < h ->
    rbm_new Rnum of_nat n h scope st = (m, st') ->
    exists w hb vb, rbm_variables m = [Some w; Some hb; Some vb] /\
    (initialized env st' w -> initialized env st' hb -> initialized env st' vb ->
      forall input chain_end, NetLaws.factor fresh use env n b input -> NetLaws.factor fresh use env n b' chain_end -> input <> chain_end ->
      (forall v, In v [w; hb; vb] -> has_leaf v input = false /\ has_leaf v chain_end = false) ->
      exists cost, rbm_cost Rnum same m input chain_end = Ok cost /\
      forall v, In v [w; hb; vb] -> exists Y y,
        gderive Rnum fresh use INR same env v cost = Ok Y /\ geval Rnum fresh use INR env Y = Ok y /\
        gradient_of (fun env => geval Rnum fresh use INR env cost) env v y).
Proof.
  intros of_nat same fresh use env n h b b' scope st m st' Hs Hn Hh E.
  destruct (rbm_new_vars _ _ _ _ _ _ _ _ E) as (w & hb & vb & v1 & v2 & v3 & A1 & A2 & A3 & D1 & S1 & D2 & S2 & D3 & S3).
  destruct (rbm_new_distinct _ _ _ _ _ _ _ _ _ _ _ E A1 A2 A3) as (N1 & N2 & N3).
  exists w, hb, vb. split; [unfold rbm_variables; now rewrite A1, A2, A3|]. intros I1 I2 I3 e1 e2 F1 F2 Ne Fr.
  pose proof (init_matrix _ _ _ _ _ _ I1 D1 S1 Hh Hn) as Mw. pose proof (init_vector _ _ _ _ _ I2 D2 S2 Hh) as Mh. pose proof (init_vector _ _ _ _ _ I3 D3 S3 Hn) as Mv.
  destruct (factor_values fresh use n env b e1 F1) as (t1 & E1 & M1 & T1). destruct (factor_values fresh use n env b' e2 F2) as (t2 & E2 & M2 & T2).
  eexists. split; [apply (cost_build same Hs w hb vb m e1 e2 A1 A2 A3 Ne)|]. intros v Hv.
  destruct (all_grad fresh use same Hs w hb vb N1 N2 N3 n h env Mw Mh Mv b b' e1 e2 t1 t2 Ne E1 M1 E2 M2 T1 T2 (fun v H => proj1 (Fr v H)) (fun v H => proj2 (Fr v H)) v Hv) as (Y & y & G1 & _ & G2 & _ & _ & G3).
  eauto.
Qed.

(** The gradients are those of contrastive divergence: for the weight between a hidden and a
    visible unit, the mean over the chain's end of visible value times probability of the hidden
    unit, minus the same mean over the input; for a hidden bias, of the probability of the
    hidden unit; for a visible bias, of the visible value. *)
Lemma C59_contrastive_divergence_lemma :
  forall (of_nat : nat -> R) same fresh use (env : nat -> tens R) (n h b b' : nat) scope st m st',
    (forall x y, same x y = true -> x = y) -> 0 < n -> 0 < h ->
    rbm_new Rnum of_nat n h scope st = (m, st') ->
    exists w hb vb, rbm_variables m = [Some w; Some hb; Some vb] /\
    (initialized env st' w -> initialized env st' hb -> initialized env st' vb ->
      forall input chain_end t t', NetLaws.factor fresh use env n b input -> NetLaws.factor fresh use env n b' chain_end -> input <> chain_end ->
      eval Rnum fresh use env input = Ok t -> eval Rnum fresh use env chain_end = Ok t' ->
      (forall v, In v [w; hb; vb] -> has_leaf v input = false /\ has_leaf v chain_end = false) ->
      let p (s : tens R) k j := logistic (Sum (fun q => entry 0 n s q k * entry 0 h (env w) j q) n + nth j (snd (env hb)) 0)%R in
      exists cost YW yW YH yH YV yV, rbm_cost Rnum same m input chain_end = Ok cost /\
        gderive Rnum fresh use INR same env w cost = Ok YW /\ geval Rnum fresh use INR env YW = Ok yW /\
        gderive Rnum fresh use INR same env hb cost = Ok YH /\ geval Rnum fresh use INR env YH = Ok yH /\
        gderive Rnum fresh use INR same env vb cost = Ok YV /\ geval Rnum fresh use INR env YV = Ok yV /\
        (forall j q, j < h -> q < n -> entry 0%R h yW j q = (mean b' (fun k => entry 0 n t' q k * p t' k j) - mean b (fun k => entry 0 n t q k * p t k j))%R) /\
        (forall j, j < h -> nth j (snd yH) 0%R = (mean b' (fun k => p t' k j) - mean b (fun k => p t k j))%R) /\
        (forall q, q < n -> nth q (snd yV) 0%R = (mean b' (fun k => entry 0 n t' q k) - mean b (fun k => entry 0 n t q k))%R)).
Proof.
  intros of_nat same fresh use env n h b b' scope st m st' Hs Hn Hh E.
  destruct (rbm_new_vars _ _ _ _ _ _ _ _ E) as (w & hb & vb & v1 & v2 & v3 & A1 & A2 & A3 & D1 & S1 & D2 & S2 & D3 & S3).
  destruct (rbm_new_distinct _ _ _ _ _ _ _ _ _ _ _ E A1 A2 A3) as (N1 & N2 & N3).
  exists w, hb, vb. split; [unfold rbm_variables; now rewrite A1, A2, A3|]. intros I1 I2 I3 e1 e2 t t' F1 F2 Ne Et Et' Fr p.
  pose proof (init_matrix _ _ _ _ _ _ I1 D1 S1 Hh Hn) as Mw. pose proof (init_vector _ _ _ _ _ I2 D2 S2 Hh) as Mh. pose proof (init_vector _ _ _ _ _ I3 D3 S3 Hn) as Mv.
  destruct (factor_values fresh use n env b e1 F1) as (t1 & E1 & M1 & T1). destruct (factor_values fresh use n env b' e2 F2) as (t2 & E2 & M2 & T2).
  assert (t1 = t) as -> by congruence. assert (t2 = t') as -> by congruence.
  pose proof (fun v H => proj1 (Fr v H)) as Fr1. pose proof (fun v H => proj2 (Fr v H)) as Fr2.
  destruct (main_W fresh use same Hs w hb vb N1 N2 N3 n h env Mw Mh Mv b b' e1 e2 t t' Ne E1 M1 E2 M2 T1 T2 Fr1 Fr2) as (YW & yW & W1 & _ & W2 & _ & W3).
  destruct (main_H fresh use same Hs w hb vb N1 N2 N3 n h env Mw Mh Mv b b' e1 e2 t t' Ne E1 M1 E2 M2 Fr1 Fr2) as (YH & yH & H1 & _ & H2 & _ & H3).
  destruct (main_V fresh use same Hs w hb vb N1 N2 N3 n h env Mw Mh Mv b b' e1 e2 t t' Ne E1 M1 E2 M2 T1 T2 Fr1 Fr2) as (YV & yV & V1 & _ & V2 & _ & V3).
  assert (Mo : forall c f, mean c (fun k => - f k)%R = (- mean c f)%R).
  { intros c f. unfold mean. rewrite (sumn_ext 0%R Rplus _ (fun k => (-1) * f k)%R) by (intros; lra). rewrite NetProofs.sumR_scal. unfold Rdiv. ring. }
  exists (GBin BSub (nM w hb vb e1) (nM w hb vb e2)), YW, yW, YH, yH, YV, yV. split; [apply (cost_build same Hs w hb vb m e1 e2 A1 A2 A3 Ne)|].
  split; [exact W1|]. split; [exact W2|]. split; [exact H1|]. split; [exact H2|]. split; [exact V1|]. split; [exact V2|]. split; [|split].
  - intros j q Hj Hq. rewrite W3 by auto. rewrite (Mo b), (Mo b'). unfold p, act. ring.
  - intros j Hj. rewrite H3 by auto. rewrite (Mo b), (Mo b'). unfold p, act. ring.
  - intros q Hq. specialize (V3 q Hq). unfold entry at 1 in V3. rewrite Nat.mul_0_r, Nat.add_0_r in V3. rewrite V3. rewrite (Mo b), (Mo b'). change (fun k => entry 0%R n t' q k) with (entry 0%R n t' q). change (fun k => entry 0%R n t q k) with (entry 0%R n t q). ring.
Qed.

Lemma scale_node fresh use env lr Y y : (0 < lr)%R -> match Y with GConst _ => False | GUn _ _ => False | _ => True end -> geval Rnum fresh use INR env Y = Ok y ->
  is_fully_defined (fst y) = true -> length (snd y) = n_elems (fst y) ->
  exists U u, gunary Rnum (UMulL lr) Y = Ok U /\ geval Rnum fresh use INR env U = Ok u /\ length (snd u) = length (snd y) /\ forall k, nth k (snd u) 0%R = (lr * nth k (snd y) 0)%R.
Proof.
  intros Hl Hc Ey Fy Ly.
  assert (Z : gunary Rnum (UMulL lr) Y = Ok (if Reqb 1 lr then Y else GUn (UMulL lr) Y)).
  { cbn [gunary]. change (n_zero Rnum) with 0%R. change (n_one Rnum) with 1%R. change (n_neg Rnum 1%R) with (-(1))%R. change (Reqb 1 lr) with (n_eqb Rnum 1%R lr). destruct Y; try contradiction; rewrite (Reqb_false 0 lr), (Reqb_false (- (1)) lr) by lra; destruct (n_eqb Rnum 1%R lr); reflexivity. }
  rewrite Z. destruct (Reqb 1 lr) eqn:E1.
  - apply Reqb_iff in E1. subst lr. exists Y, y. split; [reflexivity|]. split; [exact Ey|]. split; [reflexivity|]. intros k. symmetry. apply Rmult_1_l.
  - exists (GUn (UMulL lr) Y), (ushape (fst y), map (fun x => lr * x)%R (snd y)). split; [reflexivity|]. split; [|split].
    + cbn [geval]. rewrite Ey. cbn [bind]. cbn [sem]. rewrite unary_ok by (split; auto). reflexivity.
    + apply map_length.
    + intros k. cbn [snd]. destruct (Nat.lt_ge_cases k (length (snd y))) as [Hk|Hk].
      * erewrite nth_error_nth; [reflexivity|]. rewrite nth_error_map, (nth_error_nth' _ 0%R) by lia. reflexivity.
      * rewrite !nth_overflow; [ring|auto|now rewrite map_length].
Qed.

(** The updates that train makes: for each variable in turn the node of learning rate times
    gradient. Subtracting its value changes every element of the variable by minus the learning
    rate times the cost's partial derivative by that element. *)
Lemma C59_updates_lemma :
  forall (of_nat : nat -> R) same fresh use (env : nat -> tens R) (n h b b' : nat) scope st m st' lr,
    (forall x y, same x y = true -> x = y) -> 0 < n -> 0 < h -> (0 < lr)%R ->
    rbm_new Rnum of_nat n h scope st = (m, st') ->
    exists w hb vb, rbm_variables m = [Some w; Some hb; Some vb] /\
    (initialized env st' w -> initialized env st' hb -> initialized env st' vb ->
      forall input chain_end, NetLaws.factor fresh use env n b input -> NetLaws.factor fresh use env n b' chain_end -> input <> chain_end ->
      (forall v, In v [w; hb; vb] -> has_leaf v input = false /\ has_leaf v chain_end = false) ->
      exists cost us, rbm_cost Rnum same m input chain_end = Ok cost /\
      rbm_updates Rnum fresh use INR same m env lr input chain_end = Ok us /\ map fst us = [w; hb; vb] /\
      forall v u, In (v, u) us -> exists d new, geval Rnum fresh use INR env u = Ok d /\ TrainSpec.tensor_sub (env v) d = Some new /\
        fst new = fst (env v) /\ length (snd new) = length (snd (env v)) /\
        forall k, k < length (snd (env v)) -> exists slope,
          derivable_pt_lim (fun x => elem (geval Rnum fresh use INR (set_elem env v k x) cost) 0) (nth k (snd (env v)) 0%R) slope /\
          nth k (snd new) 0%R = (nth k (snd (env v)) 0 - lr * slope)%R).
Proof.
  intros of_nat same fresh use env n h b b' scope st m st' lr Hs Hn Hh Hl E.
  destruct (rbm_new_vars _ _ _ _ _ _ _ _ E) as (w & hb & vb & v1 & v2 & v3 & A1 & A2 & A3 & D1 & S1 & D2 & S2 & D3 & S3).
  destruct (rbm_new_distinct _ _ _ _ _ _ _ _ _ _ _ E A1 A2 A3) as (N1 & N2 & N3).
  exists w, hb, vb. split; [unfold rbm_variables; now rewrite A1, A2, A3|]. intros I1 I2 I3 e1 e2 F1 F2 Ne Fr.
  pose proof (init_matrix _ _ _ _ _ _ I1 D1 S1 Hh Hn) as Mw. pose proof (init_vector _ _ _ _ _ I2 D2 S2 Hh) as Mh. pose proof (init_vector _ _ _ _ _ I3 D3 S3 Hn) as Mv.
  destruct (factor_values fresh use n env b e1 F1) as (t1 & E1 & M1 & T1). destruct (factor_values fresh use n env b' e2 F2) as (t2 & E2 & M2 & T2).
  set (cost := GBin BSub (nM w hb vb e1) (nM w hb vb e2)).
  assert (G : forall v, In v [w; hb; vb] -> exists Y U u, gderive Rnum fresh use INR same env v cost = Ok Y /\ gunary Rnum (UMulL lr) Y = Ok U /\ geval Rnum fresh use INR env U = Ok u /\
    length (snd u) = length (snd (env v)) /\ forall k, k < length (snd (env v)) -> exists slope,
          derivable_pt_lim (fun x => elem (geval Rnum fresh use INR (set_elem env v k x) cost) 0) (nth k (snd (env v)) 0%R) slope /\ nth k (snd u) 0%R = (lr * slope)%R).
  { intros v Hv.
    destruct (all_grad fresh use same Hs w hb vb N1 N2 N3 n h env Mw Mh Mv b b' e1 e2 t1 t2 Ne E1 M1 E2 M2 T1 T2 (fun v H => proj1 (Fr v H)) (fun v H => proj2 (Fr v H)) v Hv) as (Y & y & G1 & Gc & G2 & G4 & G5 & G6 & G3).
    destruct (scale_node fresh use env lr Y y Hl Gc G2 G4 G5) as (U & u & U1 & U2 & U3 & U4). exists Y, U, u. split; [exact G1|]. split; [exact U1|]. split; [exact U2|]. split; [congruence|].
    intros k Hk. specialize (G3 k Hk). rewrite (at_nth' (env v) k _ eq_refl Hk), (at_nth' y k (length (snd (env v)))) in G3 by auto. exists (nth k (snd y) 0%R). split; [exact G3|]. apply U4. }
  destruct (G w) as (Y1 & U1 & u1 & G11 & G12 & G13); [now left|]. destruct (G hb) as (Y2 & U2 & u2 & G21 & G22 & G23); [right; now left|]. destruct (G vb) as (Y3 & U3 & u3 & G31 & G32 & G33); [right; right; now left|].
  assert (Ec : rbm_cost Rnum same m e1 e2 = Ok cost) by (apply (cost_build same Hs w hb vb m e1 e2 A1 A2 A3 Ne)).
  exists cost, [(w, U1); (hb, U2); (vb, U3)]. split; [exact Ec|]. split; [|split; [reflexivity|]].
  - unfold rbm_updates. rewrite Ec, A1, A2, A3. cbn [bind ptr_of]. rewrite G11, G21, G31. cbn [bind]. rewrite G12, G22, G32. reflexivity.
  - intros v u Hin.
    assert (Hc : exists d, geval Rnum fresh use INR env u = Ok d /\ length (snd d) = length (snd (env v)) /\ forall k, k < length (snd (env v)) -> exists slope,
          derivable_pt_lim (fun x => elem (geval Rnum fresh use INR (set_elem env v k x) cost) 0) (nth k (snd (env v)) 0%R) slope /\ nth k (snd d) 0%R = (lr * slope)%R).
    { destruct Hin as [H|[H|[H|[]]]]; injection H as <- <-; eauto. }
    destruct Hc as (d & Ed & Ld & Hd). exists d. unfold TrainSpec.tensor_sub. rewrite Ld, Nat.eqb_refl. eexists. split; [exact Ed|]. split; [reflexivity|]. split; [reflexivity|].
    split; [cbn [snd]; rewrite map_length, combine_length; lia|].
    intros k Hk. destruct (Hd k Hk) as (slope & L & V). exists slope. split; [exact L|]. rewrite <- V. cbn [snd].
    erewrite nth_error_nth; [reflexivity|]. rewrite nth_error_map. rewrite (nth_error_nth' _ (0%R, 0%R)) by (rewrite combine_length; lia). rewrite combine_nth by auto. reflexivity.
Qed.

(** The gradient construction of this model and that of C35 to C37 are the same where both apply: for every
    expression without a reduction along an axis of something that depends on the variable. *)
Lemma C59_same_as_before_lemma :
  forall (T : Type) (N : num T) fresh use of_nat (same : @gexpr T -> @gexpr T -> bool) env v (e : @expr T), no_axis_sum v e ->
    geval N fresh use of_nat env (inj e) = eval N fresh use env e /\
    gderive N fresh use of_nat same env v (inj e) =
      match derive N fresh use (fun a b => same (inj a) (inj b)) env v e with Ok d => Ok (inj d) | Throw => Throw | Abort => Abort | UB => UB end.
Proof. intros. split; [apply geval_inj|]. now apply derive_inj. Qed.


(** Finding 1: below two operations, the gradient of a sum along an axis cannot be evaluated:
    sin(sin(reduce_sum(sin(x), 0))) has a value for every x of shape [3; 2], its derive node is
    built, and evaluating that node throws (the note that selects the axial product is lost
    after the first product). *)
Lemma C59_axis_sum_below_two_operations_refuted_lemma :
  forall (T : Type) (N : num T) fresh use of_nat same (env : nat -> tens T) (a b c d e f : T),
    (forall x y, same x y = true -> x = y) -> n_eqb N (n_zero N) (n_one N) = false -> n_eqb N (n_one N) (n_one N) = true ->
    env 0 = ([3; 2], [a; b; c; d; e; f]) ->
    let s := GSum (Some 0) (GUn USin (GVar 0)) in
    let node := GUn USin (GUn USin s) in
    (exists t, geval N fresh use of_nat env node = Ok t /\ fst t = [2]) /\
    exists Y, gderive N fresh use of_nat same env 0 node = Ok Y /\ geval N fresh use of_nat env Y = Throw.
Proof.
  intros T N fresh use of_nat same env a b c d e f Hs H2 H3 Henv s node. split.
  - eexists (([2] : shape), _ : list T). split; [|reflexivity]. unfold node, s. cbn [geval]. rewrite Henv. vm_compute. reflexivity.
  - exists (GBin BMul (GAx BMul false 0 (GGrp 0 (GUn UCos (GVar 0))) (GUn UCos s)) (GUn UCos (GUn USin s))). split.
    + assert (S : forall x y, x <> y -> same x y = false) by (intros x y Hxy; destruct (same x y) eqn:E; [now apply Hs in E|reflexivity]).
      unfold gderive, gderive_of, node, s. cbn. unfold gbinary, ghelper, gunary, gfold, gview, gnode2. cbn.
      rewrite ?S by discriminate. cbn. rewrite ?H2, ?H3. cbn. rewrite ?S by discriminate. cbn. rewrite ?S by discriminate. reflexivity.
    + unfold s. cbn [geval]. rewrite Henv. vm_compute. reflexivity.
Qed.

(** Finding 2: when the dimension left by the sum equals the one summed over, evaluating the
    gradient reads outside of the argument's elements: sin(reduce_sum(sin(x), 0)) with x of
    shape [2; 2]. *)
Lemma C59_axis_sum_square_refuted_lemma :
  forall (T : Type) (N : num T) fresh use of_nat same (env : nat -> tens T) (a b c d : T),
    (forall x y, same x y = true -> x = y) -> n_eqb N (n_zero N) (n_one N) = false -> n_eqb N (n_one N) (n_one N) = true ->
    env 0 = ([2; 2], [a; b; c; d]) ->
    let node := GUn USin (GSum (Some 0) (GUn USin (GVar 0))) in
    (exists t, geval N fresh use of_nat env node = Ok t /\ fst t = [2]) /\
    exists Y, gderive N fresh use of_nat same env 0 node = Ok Y /\ geval N fresh use of_nat env Y = UB.
Proof.
  intros T N fresh use of_nat same env a b c d Hs H2 H3 Henv node. split.
  - eexists (([2] : shape), _ : list T). split; [|reflexivity]. unfold node. cbn [geval]. rewrite Henv. vm_compute. reflexivity.
  - exists (GAx BMul false 0 (GGrp 0 (GUn UCos (GVar 0))) (GUn UCos (GSum (Some 0) (GUn USin (GVar 0))))). split.
    + assert (S : forall x y, x <> y -> same x y = false) by (intros x y Hxy; destruct (same x y) eqn:E; [now apply Hs in E|reflexivity]).
      unfold gderive, gderive_of, node. cbn. unfold gbinary, ghelper, gunary, gfold, gview, gnode2. cbn.
      rewrite ?S by discriminate. cbn. rewrite ?H2, ?H3. cbn. rewrite ?S by discriminate. cbn. reflexivity.
    + cbn [geval]. rewrite Henv. vm_compute. reflexivity.
Qed.

(** Hypotheses met: a machine of two visible and one hidden unit, an input batch of two samples
    and a chain end of three. *)
Lemma C59_nonvacuous_lemma :
  exists (env : nat -> tens R) (m : rbm) (st : store),
    rbm_new Rnum INR 2 1 "r"%string [] = (m, st) /\ rbm_variables m = [Some 0; Some 1; Some 2] /\
    initialized env st 0 /\ initialized env st 1 /\ initialized env st 2 /\
    NetLaws.factor (fun _ => 0%R) false env 2 2 (EVar 3) /\ NetLaws.factor (fun _ => 0%R) false env 2 3 (EVar 4) /\
    (forall v, In v [0; 1; 2] -> @has_leaf R v (EVar 3) = false /\ @has_leaf R v (EVar 4) = false) /\
    @EVar R 3 <> EVar 4.
Proof.
  exists (fun k : nat => match k with 0 => ([1; 2], [0%R; 0%R]) | 1 => ([1], [0%R]) | 2 => ([2], [0%R; 1%R]) | 3 => ([2; 2], [0%R; 1%R; 1%R; 0%R]) | _ => ([2; 3], [0%R; 1%R; 1%R; 0%R; 1%R; 1%R]) end : tens R).
  do 2 eexists. split; [reflexivity|]. split; [reflexivity|].
  split; [eexists; split; [reflexivity|split; reflexivity]|]. split; [eexists; split; [reflexivity|split; reflexivity]|]. split; [eexists; split; [reflexivity|split; reflexivity]|].
  split; [split; [eexists; split; [reflexivity|repeat split; auto; lia]|exact I]|]. split; [split; [eexists; split; [reflexivity|repeat split; auto; lia]|exact I]|].
  split; [|discriminate]. intros v [<-|[<-|[<-|[]]]]; split; reflexivity.
Qed.
