(** C60: sampling, conditional probabilities and the Gibbs chain of a restricted Boltzmann
    machine. *)
From Coq Require Import String Reals Lra Lia.
From Verif Require Import Common CseModel CseSpec ShapeModel ShapeSpec ShapeProofs TransformModel TransformProofs FitModel FitProofs MatmulSpec MatmulModel MatmulProofs Matmul2Proofs ElemSpec ElemModel ElemProofs NumSpec RealNum ElemLaws GradModel GradSpec GradProofs MatrixSpec MatrixProofs LeafModel LeafProofs MlpSpec MlpModel MlpProofs MlpLaws RbmSpec RbmModel RbmLaws GroupModel RbmTrainModel RbmTrainSpec RbmTrainLaws SampleModel SampleSpec RbmChainModel RbmChainProofs.
From Verif Require NetProofs NetLaws TrainSpec.
Local Open Scope list_scope.

(** Sampling a node of probabilities: one draw for every element, each between 0 and the number of trials. *)
Lemma C60_sample_lemma :
  forall fresh draw (n : nat) (t : tens R), binomial draw ->
    is_fully_defined (fst t) = true -> length (snd t) = n_elems (fst t) ->
    (Forall (fun p => 0 <= p <= 1)%R (snd t) ->
      exists s, sample_value Rnum fresh draw (INR n) t = Ok s /\
        fst s = (if n_elems (fst t) =? 1 then [1] else fst t) /\ length (snd s) = length (snd t) /\
        forall i p, nth_error (snd t) i = Some p -> exists j, nth_error (snd s) i = Some (INR j) /\ j <= n /\ (p = 0%R -> j = 0) /\ (p = 1%R -> j = n)) /\
    (Exists (fun p => p < 0 \/ 1 < p)%R (snd t) -> sample_value Rnum fresh draw (INR n) t = Abort).
Proof.
  intros fresh draw n t Hb F L. split.
  - intros H. eexists. split; [apply (sample_ok Rnum fresh draw (INR n) t 0%R); [now split|]|split; [reflexivity|split]].
    + apply Forall_forall. intros p Hp. rewrite Forall_forall in H. now apply unit_R, H.
    + cbn [snd]. now rewrite map_length, seq_length.
    + intros i p Hi. cbn [snd]. pose proof (nth_error_lt _ _ _ Hi) as Hl. rewrite nth_error_map, nth_error_seq by exact Hl. cbn [option_map Nat.add]. rewrite (nth_error_nth _ _ 0%R Hi).
      rewrite Forall_forall in H. destruct (Hb i n p) as (j & H1 & H2 & H3 & H4); [apply H; eapply nth_error_In; eauto|]. exists j. cbn. rewrite H2. auto.
  - intros H. apply sample_abort; [now split|]. apply Exists_exists in H. destruct H as (p & Hp & Hr). apply Exists_exists. exists p. split; [exact Hp|].
    destruct (in_unit Rnum p) eqn:E; [|reflexivity]. apply unit_R in E. lra.
Qed.

(** Finding: sampling from a constant of any size writes to a vector of no elements. *)
Lemma C60_sample_constant_refuted_lemma :
  forall (T : Type) (draw : nat -> T -> T -> T) n (t : tens T), snd t <> [] -> sample_const draw n t = UB.
Proof.
  intros T draw n [s d] H. unfold sample_const. cbn [snd] in *. destruct d as [|x l]; [contradiction|]. reflexivity.
Qed.
(** Finding: sampling with nodes for both the trials and the probabilities reads an argument
    that the node does not have. *)
Lemma C60_sample_two_nodes_refuted_lemma :
  forall (T : Type) (N : num T) fresh draw (tn tp : tens T),
    is_fully_defined (fst tp) = true -> length (snd tp) = n_elems (fst tp) -> 0 < n_elems (fst tp) -> sample_both_value N fresh draw tn tp = UB.
Proof.
  intros T N fresh draw tn [s d] F L H. unfold sample_both_value, forward_pass. cbn [map fst snd] in *. rewrite shaper_unary by exact F. cbn [bind]. rewrite ushape_def by exact F.
  unfold sample_both_fwd. rewrite ushape_n. destruct (n_elems s) as [|k]; [lia|]. destruct d as [|x l]; [discriminate|]. reflexivity.
Qed.

Lemma prop_nonconst (m : rbm) e e' : rbm_prop_up Rnum m e = Ok e' \/ rbm_prop_down Rnum m e = Ok e' -> match e' with EConst _ => False | _ => True end.
Proof.
  unfold rbm_prop_up, rbm_prop_down, mk_axb, mk_mat. intros [H|H].
  - destruct (r_w m), (r_hb m); try discriminate H. cbn [ptr_of bind] in H. cbn [cview_of] in H. cbn [bind] in H. rewrite sigmoid_node in H by exact I. injection H as <-. exact I.
  - destruct (r_w m), (r_vb m); try discriminate H. cbn [ptr_of bind] in H. cbn [cview_of] in H. cbn [bind] in H. rewrite sigmoid_node in H by exact I. injection H as <-. exact I.
Qed.
Lemma down_leaves (m : rbm) w vb e e' v : r_w m = Some w -> r_vb m = Some vb -> rbm_prop_down Rnum m e = Ok e' -> has_leaf v e' = true -> has_leaf v e = true \/ v = w \/ v = vb.
Proof.
  unfold rbm_prop_down, mk_axb, mk_mat. intros -> -> H L. cbn [ptr_of bind] in H. cbn [cview_of] in H. cbn [bind] in H. rewrite sigmoid_node in H by exact I. injection H as <-.
  cbn [has_leaf mk_tr] in L. apply orb_prop in L. destruct L as [L|L]; [apply orb_prop in L; destruct L as [L|L]|]; [now left|right; left; now apply Nat.eqb_eq in L|right; right; now apply Nat.eqb_eq in L].
Qed.
Lemma logistic_unit x : (0 < logistic x < 1)%R.
Proof.
  unfold logistic. pose proof (exp_pos (- x)) as P. split.
  - apply Rdiv_lt_0_compat; lra.
  - apply (Rmult_lt_reg_r (1 + exp (- x))); [lra|]. unfold Rdiv. rewrite Rmult_assoc, Rinv_l by lra. lra.
Qed.
Lemma sample_leaf_mat fresh use draw env k e c r t : match e with EConst _ => False | _ => True end ->
  eval Rnum fresh use env e = Ok t -> matrix c r t -> (forall x y, x < c -> y < r -> (0 < entry 0 c t x y < 1)%R) ->
  exists s, sample_leaf Rnum fresh use draw env k e = Ok (set_leaf env k s) /\ matrix c r s /\ forall x y, x < c -> y < r -> entry 0%R c s x y = draw k (x + c * y) 1%R (entry 0%R c t x y).
Proof.
  intros Hc E M H. destruct (sample_mat fresh (draw k) c r t M) as (s & S1 & S2 & S3).
  - intros x y Hx Hy. specialize (H x y Hx Hy). lra.
  - exists s. split; [|now split]. destruct e; try contradiction; unfold sample_leaf; rewrite E; cbn [bind]; rewrite S1; reflexivity.
Qed.
Lemma deref_lt {T} (st : @store T) p v : deref st p = Ok v -> p < length st.
Proof. unfold deref. intros H. destruct (nth_error st p) eqn:E; [now apply nth_error_lt in E|discriminate]. Qed.
Lemma init_same {T} (env env' : nat -> tens T) st p : env' p = env p -> initialized env st p -> initialized env' st p.
Proof. unfold initialized. intros ->. auto. Qed.
Lemma init_lt {T} (env : nat -> tens T) st p : initialized env st p -> p < length st.
Proof. intros (v & D & _). now apply deref_lt in D. Qed.
Lemma set_other {T} (env : nat -> tens T) k t i : i <> k -> set_leaf env k t i = env i.
Proof. intros H. unfold set_leaf. now rewrite (proj2 (Nat.eqb_neq i k)). Qed.
Lemma set_same {T} (env : nat -> tens T) k t : set_leaf env k t k = t.
Proof. unfold set_leaf. now rewrite Nat.eqb_refl. Qed.
Lemma binomial_one (draw : nat -> nat -> R -> R -> R) : (forall k, binomial (draw k)) -> forall k i p, (0 < p < 1)%R -> draw k i 1%R p = 0%R \/ draw k i 1%R p = 1%R.
Proof.
  intros H k i p Hp. destruct (H k i 1 p) as (j & J1 & J2 & _); [lra|]. change (INR 1) with 1%R in J2. rewrite J2. destruct j as [|[|j]]; [now left|now right|lia].
Qed.

Section Chain.
Context (of_nat : nat -> R) (draw : nat -> nat -> R -> R -> R) (fresh : nat -> R) (use : bool) (Hdraw : forall k, binomial (draw k)).
Context (n h b : nat) (Hn : 0 < n) (Hh : 0 < h) (Hb : 0 < b) (scope : string) (st : @store R) (m : rbm) (st' : @store R) (E : rbm_new Rnum of_nat n h scope st = (m, st')).
Context (w hb vb : nat) (Em : rbm_variables m = [Some w; Some hb; Some vb]).
Context (env0 : nat -> tens R) (I1 : initialized env0 st' w) (I2 : initialized env0 st' hb) (I3 : initialized env0 st' vb).
Context (k0 : nat) (Hk0 : length st' <= k0).
Notation ev := (eval Rnum fresh use).
Notation up := (fun (v : nat -> R) j => logistic (Sum (fun q => v q * entry 0 h (env0 w) j q) n + nth j (snd (env0 hb)) 0)%R).
Notation down := (fun (c : nat -> R) q => logistic (Sum (fun j => c j * entry 0 h (env0 w) j q) h + nth q (snd (env0 vb)) 0)%R).

Definition agrees (env : nat -> tens R) : Prop := forall i, i < k0 -> env i = env0 i.
Lemma prop_up_ok env e t : agrees env -> ev env e = Ok t -> matrix n b t ->
  exists e' t', rbm_prop_up Rnum m e = Ok e' /\ match e' with EConst _ => False | _ => True end /\ ev env e' = Ok t' /\ matrix h b t' /\ forall j y, j < h -> y < b -> entry 0%R h t' j y = up (fun q => entry 0%R n t q y) j.
Proof.
  intros A He Ht. destruct (C44_rbm_value_lemma of_nat fresh use env n h b scope st m st' Hn Hh Hb E) as (w' & hb' & vb' & Em' & K).
  rewrite Em in Em'. injection Em' as <- <- <-.
  pose proof (A w ltac:(apply init_lt in I1; lia)) as Aw. pose proof (A hb ltac:(apply init_lt in I2; lia)) as Ah. pose proof (A vb ltac:(apply init_lt in I3; lia)) as Av.
  destruct (K (init_same _ _ _ _ Aw I1) (init_same _ _ _ _ Ah I2) (init_same _ _ _ _ Av I3)) as [K1 _]. destruct (K1 e t He Ht) as (e' & t' & X1 & X2 & X3 & X4).
  exists e', t'. split; [exact X1|]. split; [apply (prop_nonconst m e e'); now left|]. split; [exact X2|]. split; [exact X3|]. intros j y Hj Hy. rewrite X4 by auto. rewrite Aw, Ah. reflexivity.
Qed.
Lemma prop_down_ok env e t : agrees env -> ev env e = Ok t -> matrix h b t ->
  exists e' t', rbm_prop_down Rnum m e = Ok e' /\ match e' with EConst _ => False | _ => True end /\ ev env e' = Ok t' /\ matrix n b t' /\ forall q y, q < n -> y < b -> entry 0%R n t' q y = down (fun j => entry 0%R h t j y) q.
Proof.
  intros A He Ht. destruct (C44_rbm_value_lemma of_nat fresh use env n h b scope st m st' Hn Hh Hb E) as (w' & hb' & vb' & Em' & K).
  rewrite Em in Em'. injection Em' as <- <- <-.
  pose proof (A w ltac:(apply init_lt in I1; lia)) as Aw. pose proof (A hb ltac:(apply init_lt in I2; lia)) as Ah. pose proof (A vb ltac:(apply init_lt in I3; lia)) as Av.
  destruct (K (init_same _ _ _ _ Aw I1) (init_same _ _ _ _ Ah I2) (init_same _ _ _ _ Av I3)) as [_ K1]. destruct (K1 e t He Ht) as (e' & t' & X1 & X2 & X3 & X4).
  exists e', t'. split; [exact X1|]. split; [apply (prop_nonconst m e e'); now right|]. split; [exact X2|]. split; [exact X3|]. intros j y Hj Hy. rewrite X4 by auto. rewrite Aw, Av. reflexivity.
Qed.
Lemma up_ext v v' j : (forall q, q < n -> v q = v' q) -> up v j = up v' j.
Proof. intros H. cbv beta. do 2 f_equal. apply sumn_ext. intros q Hq. now rewrite H. Qed.
Lemma down_ext v v' q : (forall j, j < h -> v j = v' j) -> down v q = down v' q.
Proof. intros H. cbv beta. do 2 f_equal. apply sumn_ext. intros j Hj. now rewrite H. Qed.

Context (s : nat) (Hs : k0 <= s) (H0 : nat -> nat -> R).
Notation Hst := (hidden_state n h up down draw s H0).
Notation Vst := (visible_state n h up down draw s H0).

Definition cinv (i : nat) (g : @gibbs R) : Prop :=
  g_next g = s + 2 * i /\ agrees (g_env g) /\
  (exists x, g_it g = EVar x /\ x < g_next g /\ matrix h b (g_env g x) /\ forall j y, j < h -> y < b -> entry 0%R h (g_env g x) j y = Hst i j y) /\
  match i with
  | 0 => g_last g = None
  | S i' => exists dist k td, g_last g = Some (dist, k) /\ k < g_next g /\ (forall v, has_leaf v dist = true -> v < g_next g) /\ matrix n b (g_env g k) /\ (forall q y, q < n -> y < b -> entry 0%R n (g_env g k) q y = Vst i' q y) /\
      ev (g_env g) dist = Ok td /\ matrix n b td /\ forall q y, q < n -> y < b -> entry 0%R n td q y = down (fun j => Hst i' j y) q
  end.
Lemma cinv_step i g : cinv i g -> exists g', gibbs_step Rnum fresh use draw m g = Ok g' /\ cinv (S i) g'.
Proof.
  intros (Nx & A & (x & Ex & Hx & Mx & Vx) & _). unfold gibbs_step. set (k := g_next g) in *. set (env := g_env g) in *. rewrite Ex.
  destruct (prop_down_ok env (EVar x) (env x) A eq_refl Mx) as (dist & td & D1 & D2 & D3 & D4 & D5). rewrite D1. cbn [bind].
  destruct (sample_leaf_mat fresh use draw env k dist n b td D2 D3 D4) as (sv & S1 & S2 & S3); [intros; rewrite D5 by auto; apply logistic_unit|]. rewrite S1. cbn [bind].
  set (env1 := set_leaf env k sv).
  assert (A1 : agrees env1) by (intros z Hz; unfold env1; rewrite set_other by lia; now apply A).
  destruct (prop_up_ok env1 (EVar k) sv A1) as (hd & th & U1 & U2 & U3 & U4 & U5); [unfold env1; cbn [eval]; now rewrite set_same|exact S2|]. rewrite U1. cbn [bind].
  destruct (sample_leaf_mat fresh use draw env1 (k + 1) hd h b th U2 U3 U4) as (sh & T1 & T2 & T3); [intros; rewrite U5 by auto; apply logistic_unit|]. rewrite T1. cbn [bind].
  eexists. split; [reflexivity|]. set (env2 := set_leaf env1 (k + 1) sh).
  assert (A2 : agrees env2) by (intros z Hz; unfold env2; rewrite set_other by lia; now apply A1).
  assert (Ek : env2 k = sv) by (unfold env2, env1; rewrite set_other, set_same by lia; reflexivity).
  assert (Ek1 : env2 (k + 1) = sh) by (unfold env2; now rewrite set_same).
  assert (Ex2 : env2 x = env x) by (unfold env2, env1; now rewrite !set_other by lia).
  assert (VS : forall q y, q < n -> y < b -> entry 0%R n sv q y = Vst i q y).
  { intros q y Hq Hy. rewrite S3, D5 by auto. unfold visible_state. rewrite Nx. f_equal. apply down_ext. intros j Hj. now apply Vx. }
  unfold cinv. cbn [g_next g_env g_it g_last]. split; [lia|]. split; [exact A2|]. split.
  - exists (k + 1). split; [reflexivity|]. split; [lia|]. rewrite Ek1. split; [exact T2|]. intros j y Hj Hy. rewrite T3, U5 by auto. cbn [hidden_state]. rewrite Nx.
    replace (s + 2 * i + 1) with (s + 2 * i + 1) by lia. f_equal. apply up_ext. intros q Hq. rewrite VS by auto. reflexivity.
  - destruct (prop_down_ok env2 (EVar x) (env2 x) A2 eq_refl) as (dist' & td' & D1' & _ & D3' & D4' & D5'); [now rewrite Ex2|]. assert (dist' = dist) as -> by congruence.
    exists dist, k, td'. split; [reflexivity|]. split; [lia|]. split.
    { unfold rbm_variables in Em. injection Em as E1 E2 E3. intros v Hv. destruct (down_leaves m w vb _ _ v E1 E3 D1 Hv) as [L|[-> | ->]].
      - cbn [has_leaf] in L. apply Nat.eqb_eq in L. lia.
      - apply init_lt in I1. lia.
      - apply init_lt in I3. lia. }
    rewrite Ek. split; [exact S2|]. split; [exact VS|]. split; [exact D3'|]. split; [exact D4'|].
    intros q y Hq Hy. rewrite D5' by auto. apply down_ext. intros j Hj. rewrite Ex2. now apply Vx.
Qed.
Lemma chain_loop g c : cinv 0 g -> exists g', gibbs_loop Rnum fresh use draw m c g = Ok g' /\ cinv c g'.
Proof. intros H. apply (for_inv cinv); [exact H|]. intros i g0 _. apply cinv_step. Qed.
End Chain.

(** The Gibbs chain that train builds: started with hidden units drawn from their distribution
    given the input (or with the persistent variable's value), c rounds of drawing the visible
    units given the hidden ones and the hidden units given these. The chain's end is the visible
    state of the last round, for every sample of the batch a vector of 0s and 1s; the state kept
    for the next call is the hidden state after it, and final_visible_dist the distribution the
    chain's end was drawn from. No variable changes. *)
Lemma C60_chain_lemma :
  forall (of_nat : nat -> R) (draw : nat -> nat -> R -> R -> R) fresh use (env : nat -> tens R) (n h b : nat) scope st m st' k c,
    (forall k, binomial (draw k)) -> 0 < n -> 0 < h -> 0 < b -> 0 < c ->
    rbm_new Rnum of_nat n h scope st = (m, st') -> length st' <= k ->
    exists w hb vb, rbm_variables m = [Some w; Some hb; Some vb] /\
    (initialized env st' w -> initialized env st' hb -> initialized env st' vb ->
      forall input t (persistent : option nat), eval Rnum fresh use env input = Ok t -> matrix n b t ->
      match persistent with None => True | Some p => p < k /\ matrix h b (env p) end ->
      let up (v : nat -> R) j := logistic (Sum (fun q => v q * entry 0 h (env w) j q) n + nth j (snd (env hb)) 0)%R in
      let down (u : nat -> R) q := logistic (Sum (fun j => u j * entry 0 h (env w) j q) h + nth q (snd (env vb)) 0)%R in
      let s := match persistent with None => k + 1 | Some _ => k end in
      let start j y := match persistent with None => draw k (j + h * y) 1%R (up (fun q => entry 0%R n t q y) j) | Some p => entry 0%R h (env p) j y end in
      exists env' chain_end chain_it dist ti td,
        rbm_chain Rnum fresh use draw m env k input persistent c = Ok (env', chain_end, chain_it, dist) /\
        k <= chain_end /\ (forall i, i < k -> env' i = env i) /\
        matrix n b (env' chain_end) /\
        (forall q y, q < n -> y < b -> entry 0%R n (env' chain_end) q y = visible_state n h up down draw s start (c - 1) q y) /\
        (forall q y, q < n -> y < b -> entry 0%R n (env' chain_end) q y = 0%R \/ entry 0%R n (env' chain_end) q y = 1%R) /\
        eval Rnum fresh use env' chain_it = Ok ti /\ matrix h b ti /\
        (forall j y, j < h -> y < b -> entry 0%R h ti j y = hidden_state n h up down draw s start c j y) /\
        eval Rnum fresh use env' dist = Ok td /\ matrix n b td /\
        (forall q y, q < n -> y < b -> entry 0%R n td q y = down (fun j => hidden_state n h up down draw s start (c - 1) j y) q)).
Proof.
  intros of_nat draw fresh use env n h b scope st m st' k c Hd Hn Hh Hb Hc E Hk.
  destruct (rbm_new_vars _ _ _ _ _ _ _ _ E) as (w & hb & vb & v1 & v2 & v3 & A1 & A2 & A3 & _).
  assert (Em : rbm_variables m = [Some w; Some hb; Some vb]) by (unfold rbm_variables; now rewrite A1, A2, A3).
  exists w, hb, vb. split; [exact Em|]. intros I1 I2 I3 input t persistent He Ht Hp up down s start.
  assert (St : exists g, gibbs_start Rnum fresh use draw m env k input persistent = Ok g /\ cinv draw fresh use n h b w hb vb env k s start 0 g).
  { unfold gibbs_start. destruct persistent as [p|].
    - eexists. split; [reflexivity|]. destruct Hp as [Hp Mp]. unfold cinv. cbn [g_next g_env g_it g_last]. split; [unfold s; lia|]. split; [intros i _; reflexivity|]. split; [|reflexivity].
      exists p. split; [reflexivity|]. split; [exact Hp|]. split; [exact Mp|]. reflexivity.
    - destruct (prop_up_ok of_nat fresh use n h b Hn Hh Hb scope st m st' E w hb vb Em env I1 I2 I3 k Hk env input t) as (hd & th & U1 & U2 & U3 & U4 & U5); auto; [intros i _; reflexivity|].
      rewrite U1. cbn [bind]. destruct (sample_leaf_mat fresh use draw env k hd h b th U2 U3 U4) as (sh & T1 & T2 & T3); [intros; rewrite U5 by auto; apply logistic_unit|]. rewrite T1. cbn [bind].
      eexists. split; [reflexivity|]. unfold cinv. cbn [g_next g_env g_it g_last]. split; [unfold s; lia|]. split; [intros i Hi; now rewrite set_other by lia|]. split; [|reflexivity].
      exists k. split; [reflexivity|]. split; [lia|]. rewrite set_same. split; [exact T2|]. intros j y Hj Hy. rewrite T3, U5 by auto. reflexivity. }
  destruct St as (g0 & G0 & C0).
  assert (Hs : k <= s) by (unfold s; destruct persistent; lia).
  destruct (chain_loop of_nat draw fresh use n h b Hn Hh Hb scope st m st' E w hb vb Em env I1 I2 I3 k Hk s Hs start g0 c C0) as (g & G & C).
  destruct c as [|c']; [lia|]. destruct C as (Nx & A & (x & Ex & Hx & Mx & Vx) & (dist & kv & td & L1 & L2 & L0 & L3 & L4 & L5 & L6 & L7)).
  unfold rbm_chain. rewrite G0. cbn [bind]. rewrite G. cbn [bind]. rewrite L1. rewrite constant_ok by (now apply (mat_wf n b)). cbn [bind].
  set (env' := set_leaf (g_env g) (g_next g) (g_env g kv)).
  assert (Ece : env' (g_next g) = g_env g kv) by (unfold env'; now rewrite set_same).
  assert (A' : forall i, i < k -> env' i = env i) by (intros i Hi; unfold env'; rewrite set_other by lia; now apply A).
  assert (Ex' : env' x = g_env g x) by (unfold env'; rewrite set_other by lia; reflexivity).
  assert (D : exists td', eval Rnum fresh use env' dist = Ok td' /\ matrix n b td' /\ forall q y, q < n -> y < b -> entry 0%R n td' q y = entry 0%R n td q y).
  { exists td. split; [|now split]. rewrite <- L5. apply eval_ext. intros v Hv.
    unfold env'. apply set_other. specialize (L0 v Hv). lia. }
  destruct D as (td' & D1 & D2 & D3).
  exists env', (g_next g), (g_it g), dist, (g_env g x), td'. split; [reflexivity|]. split; [lia|]. split; [exact A'|]. rewrite Ece. split; [exact L3|].
  replace (S c' - 1) with c' by lia. split; [exact L4|]. split.
  { intros q y Hq Hy. rewrite L4 by auto. unfold visible_state. apply (binomial_one draw Hd). apply logistic_unit. }
  split; [rewrite Ex; cbn [eval]; now rewrite Ex'|]. split; [exact Mx|]. split; [exact Vx|]. split; [exact D1|]. split; [exact D2|].
  intros q y Hq Hy. rewrite D3 by auto. now apply L7.
Qed.

(** Finding: with no round (n_cont_div = 0) train dereferences a null pointer. *)
Lemma C60_no_round_refuted_lemma :
  forall (of_nat : nat -> R) (draw : nat -> nat -> R -> R -> R) fresh use (env : nat -> tens R) (n h b : nat) scope st m st' k,
    0 < n -> 0 < h -> 0 < b ->
    rbm_new Rnum of_nat n h scope st = (m, st') -> length st' <= k ->
    exists w hb vb, rbm_variables m = [Some w; Some hb; Some vb] /\
    (initialized env st' w -> initialized env st' hb -> initialized env st' vb ->
      forall same lr input t persistent, eval Rnum fresh use env input = Ok t -> matrix n b t ->
      rbm_train Rnum fresh use of_nat draw same m env k lr input persistent 0 = UB).
Proof.
  intros of_nat draw fresh use env n h b scope st m st' k Hn Hh Hb E Hk.
  destruct (rbm_new_vars _ _ _ _ _ _ _ _ E) as (w & hb & vb & v1 & v2 & v3 & A1 & A2 & A3 & _).
  assert (Em : rbm_variables m = [Some w; Some hb; Some vb]) by (unfold rbm_variables; now rewrite A1, A2, A3).
  exists w, hb, vb. split; [exact Em|]. intros I1 I2 I3 same lr input t persistent He Ht.
  unfold rbm_train, rbm_chain, gibbs_start. destruct persistent as [p|]; [reflexivity|].
  destruct (prop_up_ok of_nat fresh use n h b Hn Hh Hb scope st m st' E w hb vb Em env I1 I2 I3 k Hk env input t) as (hd & th & U1 & U2 & U3 & U4 & U5); auto; [intros i _; reflexivity|].
  rewrite U1. cbn [bind]. destruct (sample_leaf_mat fresh use draw env k hd h b th U2 U3 U4) as (sh & T1 & T2 & T3); [intros; rewrite U5 by auto; apply logistic_unit|]. rewrite T1. reflexivity.
Qed.

(** One call of train as a whole: after any draws, with the chain's end held fixed, what is
    subtracted from each element of the weight, the hidden and the visible bias is the learning
    rate times the partial derivative of mean energy of the input minus mean energy of the
    chain's end. *)
Lemma C60_train_lemma :
  forall (of_nat : nat -> R) (draw : nat -> nat -> R -> R -> R) same fresh use (env : nat -> tens R) (n h b : nat) scope st m st' k c lr,
    (forall k, binomial (draw k)) -> (forall x y, same x y = true -> x = y) -> 0 < n -> 0 < h -> 0 < b -> 0 < c -> (0 < lr)%R ->
    rbm_new Rnum of_nat n h scope st = (m, st') -> length st' <= k ->
    exists w hb vb, rbm_variables m = [Some w; Some hb; Some vb] /\
    (initialized env st' w -> initialized env st' hb -> initialized env st' vb ->
      forall input persistent, NetLaws.factor fresh use env n b input ->
      (forall v, In v [w; hb; vb] \/ k <= v -> has_leaf v input = false) ->
      match persistent with None => True | Some p => p < k /\ matrix h b (env p) end ->
      exists env' us chain_end chain_it dist cost,
        rbm_chain Rnum fresh use draw m env k input persistent c = Ok (env', chain_end, chain_it, dist) /\
        rbm_cost Rnum same m input (EVar chain_end) = Ok cost /\
        rbm_train Rnum fresh use INR draw same m env k lr input persistent c = Ok (env', us) /\ map fst us = [w; hb; vb] /\
        (forall i, i < k -> env' i = env i) /\
        forall v u, In (v, u) us -> exists d new, geval Rnum fresh use INR env' u = Ok d /\ TrainSpec.tensor_sub (env v) d = Some new /\
          fst new = fst (env v) /\ length (snd new) = length (snd (env v)) /\
          forall k, k < length (snd (env v)) -> exists slope,
            derivable_pt_lim (fun x => elem (geval Rnum fresh use INR (set_elem env' v k x) cost) 0) (nth k (snd (env v)) 0%R) slope /\
            nth k (snd new) 0%R = (nth k (snd (env v)) 0 - lr * slope)%R).
Proof.
  intros of_nat draw same fresh use env n h b scope st m st' k c lr Hd Hs Hn Hh Hb Hc Hl E Hk.
  destruct (C60_chain_lemma of_nat draw fresh use env n h b scope st m st' k c Hd Hn Hh Hb Hc E Hk) as (w & hb & vb & Em & K).
  exists w, hb, vb. split; [exact Em|]. intros I1 I2 I3 input persistent F Fr Hp. pose proof F as [(t & He & Ht) _].
  destruct (K I1 I2 I3 input t persistent He Ht Hp) as (env' & ce & it & dist & ti & td & R1 & R2 & R3 & R4 & _ & _ & _).
  assert (Ext : forall e, (forall v, k <= v -> has_leaf v e = false) -> eval Rnum fresh use env' e = eval Rnum fresh use env e).
  { intros e He'. apply eval_ext. intros v Hv. apply R3. destruct (Nat.lt_ge_cases v k) as [|Hge]; [assumption|]. now rewrite (He' v Hge) in Hv. }
  assert (F' : NetLaws.factor fresh use env' n b input).
  { destruct F as [_ F2]. split; [exists t; split; [|exact Ht]; rewrite Ext; auto|]. destruct input; auto. destruct F2 as [(t2 & X1 & X2) X3]. split; [|exact X3]. exists t2. split; [|exact X2].
    rewrite Ext; [exact X1|]. intros v Hv. specialize (Fr v (or_intror Hv)). exact Fr. }
  pose proof (R3 w ltac:(apply init_lt in I1; lia)) as Ew. pose proof (R3 hb ltac:(apply init_lt in I2; lia)) as Eh. pose proof (R3 vb ltac:(apply init_lt in I3; lia)) as Ev.
  destruct (C59_updates_lemma of_nat same fresh use env' n h b b scope st m st' lr Hs Hn Hh Hl E) as (w' & hb' & vb' & Em' & U).
  rewrite Em in Em'. injection Em' as <- <- <-.
  assert (Nc : input <> EVar ce) by (intros ->; specialize (Fr ce (or_intror R2)); cbn [has_leaf] in Fr; now rewrite Nat.eqb_refl in Fr).
  assert (Fe : NetLaws.factor fresh use env' n b (EVar ce)) by (split; [exists (env' ce); split; [reflexivity|exact R4]|exact I]).
  destruct (U (init_same _ _ _ _ Ew I1) (init_same _ _ _ _ Eh I2) (init_same _ _ _ _ Ev I3) input (EVar ce) F' Fe Nc) as (cost & us & C1 & C2 & C3 & C4).
  { intros v Hv. split; [apply Fr; now left|]. cbn [has_leaf]. apply Nat.eqb_neq. destruct Hv as [<-|[<-|[<-|[]]]]; [apply init_lt in I1|apply init_lt in I2|apply init_lt in I3]; lia. }
  exists env', us, ce, it, dist, cost. split; [exact R1|]. split; [exact C1|]. split; [unfold rbm_train; rewrite R1; cbn [bind]; now rewrite C2|]. split; [exact C3|]. split; [exact R3|].
  intros v u Hin. assert (Hv : env' v = env v).
  { assert (In v [w; hb; vb]) as [<-|[<-|[<-|[]]]] by (rewrite <- C3; now apply (in_map fst) in Hin); auto. }
  destruct (C4 v u Hin) as (d & new & X). rewrite Hv in X. eauto.
Qed.

(** Hypotheses met: draws that succeed only when they must, a machine of two visible and one
    hidden unit, a batch of two samples, and a persistent state. *)
Lemma C60_nonvacuous_lemma :
  binomial (fun _ n p => if Req_EM_T p 1 then n else 0%R) /\
  exists (env : nat -> tens R) (m : rbm) (st : store),
    rbm_new Rnum INR 2 1 "r"%string [] = (m, st) /\ rbm_variables m = [Some 0; Some 1; Some 2] /\ length st <= 5 /\
    initialized env st 0 /\ initialized env st 1 /\ initialized env st 2 /\
    NetLaws.factor (fun _ => 0%R) false env 2 2 (EVar 3) /\ 4 < 5 /\ matrix 1 2 (env 4) /\
    (forall v, In v [0; 1; 2] \/ 5 <= v -> @has_leaf R v (EVar 3) = false).
Proof.
  split.
  - intros i n p Hp. destruct (Req_EM_T p 1) as [->|Hn].
    + exists n. split; [lia|]. split; [reflexivity|]. split; [lra|reflexivity].
    + exists 0. split; [lia|]. split; [reflexivity|]. split; [reflexivity|contradiction].
  - exists (fun k : nat => match k with 0 => ([1; 2], [0%R; 0%R]) | 1 => ([1], [0%R]) | 2 => ([2], [0%R; 1%R]) | 3 => ([2; 2], [0%R; 1%R; 1%R; 0%R]) | _ => ([1; 2], [0%R; 1%R]) end : tens R).
    do 2 eexists. split; [reflexivity|]. split; [reflexivity|]. split; [cbn; lia|].
    split; [eexists; split; [reflexivity|split; reflexivity]|]. split; [eexists; split; [reflexivity|split; reflexivity]|]. split; [eexists; split; [reflexivity|split; reflexivity]|].
    split; [split; [eexists; split; [reflexivity|repeat split; auto; lia]|exact I]|]. split; [lia|]. split; [repeat split; auto; lia|].
    intros v Hv. cbn [has_leaf]. apply Nat.eqb_neq. destruct Hv as [[<-|[<-|[<-|[]]]]|Hv]; lia.
Qed.
