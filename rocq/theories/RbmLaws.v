(** C57: energy and costs of a restricted Boltzmann machine. *)
From Coq Require Import String Reals Lra Lia.
From Verif Require Import Common CseModel CseSpec ShapeModel ShapeSpec ShapeProofs TransformSpec TransformModel TransformProofs TransformLaws FitModel FitProofs MatmulSpec MatmulModel ElemSpec ElemModel ElemProofs NumSpec RealNum ElemLaws GradModel MatrixSpec MatrixProofs LeafModel LeafProofs LeafLaws MlpSpec MlpModel MlpProofs MlpLaws MeanLaws RbmSpec RbmModel.
Local Open Scope list_scope.

Lemma fold1_sumn (f : nat -> R) n : fold1 Rplus 0%R (map f (seq 0 n)) = Sum f n.
Proof.
  destruct n as [|n]; [reflexivity|]. cbn [seq map fold1]. 
  assert (G : forall k, fold_left Rplus (map f (seq 1 k)) (f 0) = Sum f (S k)).
  { induction k as [|k IH]; [cbn; lra|]. rewrite seq_S, map_app, fold_left_app, IH. reflexivity. }
  apply G.
Qed.

(** a value per sample of a batch: shape [b] or [1, b] *)
Definition samples (b : nat) (t : tens R) : Prop := 0 < b /\ length (snd t) = b /\ (fst t = [b] \/ fst t = [1; b]).
Notation at_ t y := (nth y (snd t) 0%R).

Lemma samples_wf b t : samples b t -> full t.
Proof. intros (Hb & L & [E|E]); split; rewrite E; cbn; try lia; destruct b; try lia; reflexivity. Qed.
Lemma samples_n b t : samples b t -> n_elems (fst t) = b.
Proof. intros (Hb & L & [E|E]); rewrite E; cbn; lia. Qed.

Lemma energy_ext n h W hb vb v v' : (forall q, q < n -> v q = v' q) -> energy n h W hb vb v = energy n h W hb vb v'.
Proof.
  intros H. unfold energy. f_equal. f_equal.
  - apply sumn_ext. intros j Hj. do 3 f_equal. f_equal. apply sumn_ext. intros q Hq. now rewrite H.
  - apply sumn_ext. intros q Hq. now rewrite H.
Qed.
Lemma mean_ext b f g : (forall y, y < b -> f y = g y) -> mean b f = mean b g.
Proof. intros H. unfold mean. f_equal. now apply sumn_ext. Qed.

Lemma classic_layout a b : (n_elems a = 1 \/ n_elems b = 1 \/ same_layout a b) \/ ~ (n_elems a = 1 \/ n_elems b = 1 \/ same_layout a b).
Proof.
  destruct (Nat.eq_dec (n_elems a) 1); [tauto|]. destruct (Nat.eq_dec (n_elems b) 1); [tauto|]. unfold same_layout.
  destruct (list_eq_dec Nat.eq_dec a b); [tauto|]. destruct (Nat.eq_dec (length a) (length b)); [tauto|]. destruct (list_eq_dec Nat.eq_dec (unpad a) (unpad b)); tauto.
Qed.

Section P.
Context (fresh : nat -> R) (use : bool).
Notation ev := (eval Rnum fresh use).

Lemma vec_tr env v c : vector c (env v) -> exists u, ev env (ETr (EVar v)) = Ok u /\ matrix 1 c u /\ forall q, q < c -> entry 0%R 1 u 0 q = nth q (snd (env v)) 0%R.
Proof.
  intros (Hc & E & L). cbn [eval bind]. exists ([1; c], snd (env v)). split; [|split].
  - apply forward_fresh.
    + cbn [map]. rewrite E. unfold shaper1. cbn [rd nth_error bind]. unfold transpose_shape. cbn. destruct c; [lia|]. reflexivity.
    + cbn. destruct c; [lia|reflexivity].
    + cbn [map]. rewrite E. unfold forward1. cbn [rd nth_error bind]. unfold transpose_fwd. cbn [length fst snd Nat.leb].
      destruct (memcpy_ok (map fresh (seq 0 (n_elems [1; c]))) (snd (env v)) 0 0 (n_elems [1; c])) as (d & E1 & E2 & E3).
      * rewrite map_length, seq_length. lia.
      * rewrite L. cbn. lia.
      * rewrite map_length, seq_length in E2. rewrite E1. f_equal. apply nth_error_ext_lt; [rewrite E2, L; cbn; lia|].
        intros i Hi. rewrite E3. rewrite E2 in Hi. rewrite Nat.sub_0_r. change (0 + n_elems [1; c]) with (n_elems [1; c]). rewrite (proj2 (Nat.ltb_lt _ _) Hi). reflexivity.
  - repeat split; auto; cbn [snd]; lia.
  - intros q Hq. unfold entry. cbn [snd]. f_equal. lia.
Qed.

(** reduce_sum along the first axis *)
Lemma sum0 env e t c b : ev env e = Ok t -> matrix c b t ->
  exists u, ev env (ESumAx 0 e) = Ok u /\ samples b u /\ fst u = [b] /\ forall y, y < b -> at_ u y = Sum (fun x => entry 0%R c t x y) c.
Proof.
  intros He Ht. pose proof Ht as (Hc & Hb & L & S). pose proof (matrix_def _ _ _ Ht) as F. pose proof (matrix_n _ _ _ Ht) as Nn. cbn [eval]. rewrite He. cbn [bind].
  assert (Es : compress_shape 0 (fst t) = Ok [b]).
  { unfold compress_shape. rewrite F. cbn [assert_ bind]. destruct S as [-> |[X ->]]; cbn [length Nat.leb Nat.eqb tl]; [reflexivity|]. assert (b = 1) as -> by nia. reflexivity. }
  assert (H0 : 0 < length (fst t)) by (destruct S as [-> |[X ->]]; cbn; lia).
  destruct (C18_compress_folds_axis_lemma R Rplus 0%R (fst t) [b] 0 (snd t) (map fresh (seq 0 (n_elems [b]))) F H0 Es) as (d & E1 & E2 & E3).
  { lia. } { now rewrite map_length, seq_length. }
  exists ([b], d). split; [|split; [|split; [reflexivity|]]].
  - apply forward_fresh.
    + cbn [map]. unfold shaper1. cbn [rd nth_error bind]. exact Es.
    + cbn. destruct b; [lia|reflexivity].
    + cbn [map]. unfold forward1. cbn [rd nth_error bind]. exact E1.
  - split; [exact Hb|]. split; [cbn [snd]; rewrite E2; cbn; lia|now left].
  - intros y Hy. cbn [snd]. rewrite <- fold1_sumn. destruct S as [Es'|[X Es']]; rewrite Es' in E3; cbn [set_nth] in E3.
    + specialize (E3 [0; y]). cbn [offset] in E3. replace (0 + 1 * (y + b * 0)) with y in E3 by lia. erewrite nth_error_nth; [|apply E3; repeat constructor; lia].
      f_equal. unfold along. cbn [nth]. apply map_ext_in. intros j Hj. cbn [set_nth offset]. unfold entry. f_equal. lia.
    + assert (c = 1 /\ b = 1) as [-> ->] by nia. assert (y = 0) as -> by lia. specialize (E3 [0]). cbn [offset] in E3. replace (0 + 1 * 0) with 0 in E3 by lia.
      erewrite nth_error_nth; [|apply E3; repeat constructor]. reflexivity.
Qed.

(** elementwise operations on values per sample *)
Lemma bin_samples env op e1 e2 t1 t2 b : ev env e1 = Ok t1 -> samples b t1 -> ev env e2 = Ok t2 -> samples b t2 ->
  exists u, ev env (EBin op e1 e2) = Ok u /\ samples b u /\ forall y, y < b -> at_ u y = bmeaning Rnum op (at_ t1 y) (at_ t2 y).
Proof.
  intros H1 S1 H2 S2. pose proof (samples_n _ _ S1) as N1. pose proof (samples_n _ _ S2) as N2. cbn [eval]. rewrite H1, H2. cbn [bind].
  pose proof S1 as (Hb & L1 & P1). pose proof S2 as (_ & L2 & P2).
  destruct (binary_ok fresh (bop_lambda Rnum op) t1 t2) as [H _]; [apply (samples_wf _ _ S1)|apply (samples_wf _ _ S2)|].
  rewrite H; clear H.
  - eexists. split; [reflexivity|].
    assert (Nb : n_elems (bshape (fst t1) (fst t2)) = b) by (unfold bshape; destruct (_ =? _) eqn:E; [rewrite ushape_n|]; auto).
    split.
    + split; [exact Hb|]. cbn [fst snd]. rewrite Nb. split.
      * rewrite map2_length, !broadcast_id by auto. lia.
      * unfold bshape, ushape. rewrite N1, N2. destruct (b =? 1) eqn:E; [left; apply Nat.eqb_eq in E; now rewrite E|exact P2].
    + intros y Hy. cbn [snd]. rewrite Nb. rewrite !broadcast_id by auto. erewrite nth_error_nth; [|apply (map2_nth_error _ _ _ _ 0%R 0%R); lia]. destruct op; reflexivity.
  - rewrite N1, N2. destruct (Nat.eq_dec b 1) as [->|Nb]; [now left|]. right. right.
    assert (Ub : unpad [b] = [b] /\ unpad [1; b] = [b]).
    { destruct b as [|[|b]]; [lia|congruence|]. split; reflexivity. }
    destruct P1 as [-> | ->], P2 as [-> | ->]; try now left.
    + right. split; [discriminate|]. destruct Ub. congruence.
    + right. split; [discriminate|]. destruct Ub. congruence.
Qed.
Lemma un_samples env op e t b : ev env e = Ok t -> samples b t ->
  exists u, ev env (EUn op e) = Ok u /\ samples b u /\ forall y, y < b -> at_ u y = meaning Rnum op (at_ t y).
Proof.
  intros H S. pose proof (samples_n _ _ S) as Nn. pose proof S as (Hb & L & P). cbn [eval]. rewrite H. cbn [bind]. rewrite unary_ok by apply (samples_wf _ _ S).
  eexists. split; [reflexivity|]. cbn [fst snd]. split.
  - split; [exact Hb|]. cbn [fst snd]. rewrite map_length. split; [exact L|]. unfold ushape. rewrite Nn. destruct (b =? 1) eqn:E; [apply Nat.eqb_eq in E; left; now rewrite E|exact P].
  - intros y Hy. rewrite <- fwd_lambda_meaning. apply nth_error_nth. rewrite nth_error_map, (nth_error_nth' _ 0%R) by lia. reflexivity.
Qed.

Lemma bin_shape env op e1 e2 t1 t2 b u : ev env e1 = Ok t1 -> samples b t1 -> ev env e2 = Ok t2 -> samples b t2 -> ev env (EBin op e1 e2) = Ok u ->
  fst u = if b =? 1 then [1] else fst t2.
Proof.
  intros H1 S1 H2 S2 Hu. pose proof (samples_n _ _ S1) as N1. pose proof (samples_n _ _ S2) as N2. cbn [eval] in Hu. rewrite H1, H2 in Hu. cbn [bind] in Hu.
  destruct (binary_ok fresh (bop_lambda Rnum op) t1 t2) as [Ha Hb]; [apply (samples_wf _ _ S1)|apply (samples_wf _ _ S2)|].
  destruct (classic_layout (fst t1) (fst t2)) as [P|P]; [rewrite (Ha P) in Hu|rewrite (Hb P) in Hu; discriminate].
  injection Hu as <-. cbn [fst]. unfold bshape, ushape. rewrite N1, N2. destruct (b =? 1); reflexivity.
Qed.
Lemma un_shape env op e t b u : ev env e = Ok t -> samples b t -> ev env (EUn op e) = Ok u -> fst u = if b =? 1 then [1] else fst t.
Proof.
  intros H S Hu. pose proof (samples_n _ _ S) as Nn. cbn [eval] in Hu. rewrite H in Hu. cbn [bind] in Hu. rewrite unary_ok in Hu by apply (samples_wf _ _ S).
  injection Hu as <-. cbn [fst]. unfold ushape. now rewrite Nn.
Qed.

Lemma mean_ok env e t b : ev env e = Ok t -> samples b t ->
  mean_value Rnum fresh use INR env e = Ok ([1], [mean b (fun y => at_ t y)]).
Proof.
  intros He S. pose proof (samples_wf _ _ S) as F. pose proof (samples_n _ _ S) as Nn. pose proof S as (Hb & L & _). unfold mean_value. rewrite He. cbn [bind]. destruct t as [s d]. cbn [fst snd] in *.
  rewrite (sum_all Rnum fresh use INR s d 0%R F). cbn [bind]. rewrite size_all. cbn [bind]. rewrite div_scalar by (split; reflexivity).
  cbn [map]. change (n_elems [1] =? 1) with true. cbn iota. do 3 f_equal. unfold mean. rewrite Nn, <- fold1_sumn. change (n_add Rnum) with Rplus. change (n_div Rnum) with Rdiv. f_equal. f_equal.
  rewrite <- L. apply nth_error_ext_lt; [now rewrite map_length, seq_length|]. intros i Hi. rewrite nth_error_map, nth_error_seq by lia. cbn [option_map]. now apply nth_error_nth'.
Qed.

(** the node of the free energy *)
Definition fe_node (w hb vb : nat) (e : @expr R) : @expr R :=
  EUn UNeg (EBin BAdd (ESumAx 0 (EUn ULog (EUn (UAddL 1%R) (EUn UExp (EAxB 1 (EMat false false e (EVar w)) (EVar hb))))))
    (EMat false true e (ETr (EVar vb)))).
Lemma fe_build same m w hb vb e : r_w m = Some w -> r_hb m = Some hb -> r_vb m = Some vb -> rbm_free_energy Rnum same m e = Ok (fe_node w hb vb e).
Proof.
  intros A1 A2 A3. unfold rbm_free_energy. rewrite A1, A2, A3. cbn [ptr_of bind]. unfold mk_axb, mk_mat. cbn [cview_of mk_tr bind mk_unary fold_node].
  change (n_zero Rnum) with 0%R. change (n_one Rnum) with 1%R. rewrite Reqb_false by lra. cbn [bind mk_unary fold_node mk_binary cview_of mk_neg]. reflexivity.
Qed.
Lemma fe_value_full env w hb vb n h b e t : matrix h n (env w) -> vector h (env hb) -> vector n (env vb) -> ev env e = Ok t -> matrix n b t ->
  exists u, ev env (fe_node w hb vb e) = Ok u /\ fst u = (if b =? 1 then [1] else [1; b]) /\ samples b u /\
    forall y, y < b -> at_ u y = energy n h (entry 0%R h (env w)) (fun j => at_ (env hb) j) (fun q => at_ (env vb) q) (fun q => entry 0%R n t q y).
Proof.
  intros Mw Mh Mv He Ht. assert (Hh : 0 < h) by apply Mh. assert (Hn : 0 < n) by apply Mv. assert (Hb : 0 < b) by apply Ht.
  assert (Ring : use = true -> exists opp, ring_theory (n_zero Rnum) (n_one Rnum) (n_add Rnum) (n_mul Rnum) (n_sub Rnum) opp eq) by (intros _; exists Ropp; exact RTheory).
  assert (X1 : exists t1, ev env (EAxB 1 (EMat false false e (EVar w)) (EVar hb)) = Ok t1 /\ matrix h b t1 /\
    forall x y, x < h -> y < b -> entry 0%R h t1 x y = (Sum (fun q => entry 0 n t q y * entry 0 h (env w) x q)%R n + at_ (env hb) x)%R).
  { cbn [eval]. rewrite He. cbn [bind].
    destruct (mat_mul Rnum fresh use Ring h b n t (env w) Ht Mw) as (u & E1 & E2 & E3 & E4). rewrite E1. cbn [bind].
    destruct (mat_bias Rnum fresh h b (n_add Rnum) u (env hb) E3 Mh) as (v & F1 & F2 & F3 & F4). exists v. split; [exact F1|]. split; [exact F3|].
    intros x y Hx Hy. change 0%R with (n_zero Rnum) at 1. rewrite F4, E4 by auto. reflexivity. }
  destruct X1 as (t1 & A1 & A2 & A3).
  destruct (un_mat fresh use env UExp _ t1 h b A1 A2) as (t2 & B1 & B2 & B3).
  destruct (un_mat fresh use env (UAddL 1%R) _ t2 h b B1 B2) as (t3 & C1 & C2 & C3).
  destruct (un_mat fresh use env ULog _ t3 h b C1 C2) as (t4 & D1 & D2 & D3).
  destruct (sum0 env _ t4 h b D1 D2) as (t5 & S1 & S2 & S3 & S4).
  assert (X2 : exists t6, ev env (EMat false true e (ETr (EVar vb))) = Ok t6 /\ samples b t6 /\ fst t6 = [1; b] /\ forall y, y < b -> at_ t6 y = Sum (fun q => entry 0 n t q y * at_ (env vb) q)%R n).
  { destruct (vec_tr env vb n Mv) as (u & U1 & U2 & U3). 
    change (ev env (EMat false true e (ETr (EVar vb)))) with (ta <- ev env e ;; tb <- ev env (ETr (EVar vb)) ;; forward_pass fresh mat_shaper (mat_forward Rnum fresh use) [ta; tb] None).
    rewrite He, U1. cbn [bind]. destruct (mat_mul Rnum fresh use Ring 1 b n t u Ht U2) as (v & V1 & V2 & V3 & V4). exists v. split; [exact V1|].
    split; [split; [exact Hb|split; [rewrite (proj1 (proj2 (proj2 V3))); lia|right; exact V2]]|]. split; [exact V2|]. intros y Hy.
    specialize (V4 0 y ltac:(lia) Hy). unfold entry at 1 in V4. replace (0 + 1 * y) with y in V4 by lia. change (n_zero Rnum) with 0%R in V4. rewrite V4.
    change (n_add Rnum) with Rplus. apply sumn_ext. intros q Hq. rewrite U3 by auto. reflexivity. }
  destruct X2 as (t6 & Y1 & Y2 & Ys & Y3).
  destruct (bin_samples env BAdd _ _ t5 t6 b S1 S2 Y1 Y2) as (t7 & Z1 & Z2 & Z3).
  destruct (un_samples env UNeg _ t7 b Z1 Z2) as (t8 & W1 & W2 & W3).
  exists t8. split; [exact W1|]. split.
  { rewrite (un_shape env UNeg _ t7 b t8 Z1 Z2 W1), (bin_shape env BAdd _ _ t5 t6 b t7 S1 S2 Y1 Y2 Z1), Ys. destruct (b =? 1); reflexivity. }
  split; [exact W2|]. intros y Hy. rewrite W3, Z3, S4, Y3 by auto. unfold energy. cbn [meaning bmeaning n_neg n_add Rnum]. f_equal. f_equal.
  apply sumn_ext. intros j Hj. rewrite D3, C3, B3, A3 by auto. reflexivity.
Qed.
Lemma fe_value env w hb vb n h b e t : matrix h n (env w) -> vector h (env hb) -> vector n (env vb) -> ev env e = Ok t -> matrix n b t ->
  exists u, ev env (fe_node w hb vb e) = Ok u /\ samples b u /\
    forall y, y < b -> at_ u y = energy n h (entry 0%R h (env w)) (fun j => at_ (env hb) j) (fun q => at_ (env vb) q) (fun q => entry 0%R n t q y).
Proof. intros H1 H2 H3 H4 H5. destruct (fe_value_full env w hb vb n h b e t H1 H2 H3 H4 H5) as (u & U1 & _ & U2 & U3). eauto. Qed.

(** ---- pseudo likelihood ---- *)
Definition nonconst (e : @expr R) : Prop := match e with EConst _ => False | _ => True end.
Lemma fold_nonconst op e : nonconst e -> fold_node Rnum op e = EUn op e.
Proof. destruct e; cbn; tauto. Qed.
Lemma cview_nonconst e : nonconst e -> cview_of Rnum e = CNone.
Proof. destruct e; cbn; tauto. Qed.

Lemma const_mat env s d c r : matrix c r (s, d) -> ev env (EConst (s, d)) = Ok (s, d) /\ matrix c r (s, d).
Proof. auto. Qed.

Lemma axis_data n b : 0 < n -> 0 < b -> exists d, const_axis_data 0%R 0 0 1%R [n; b] = Ok d /\ matrix n b ([n; b], d) /\
  forall x y, x < n -> y < b -> entry 0%R n ([n; b], d) x y = if x =? 0 then 1%R else 0%R.
Proof.
  intros Hn Hb.
  assert (D : defined [n; b]). { apply is_fully_defined_iff. cbn. destruct n; [lia|]. destruct b; [lia|]. reflexivity. }
  assert (Nn : n_elems [n; b] = n * b) by (cbn; lia).
  destruct (const_axis_data_ok 0%R 1%R 0 0 [n; b] D ltac:(cbn; lia)) as (d & E & L & H). rewrite Nn in L.
  exists d. split; [exact E|]. split. { repeat split; auto. }
  intros x y Hx Hy. unfold entry. cbn [snd]. specialize (H [x; y] ltac:(repeat constructor; auto)). cbn [offset] in H. replace (x + n * (y + b * 0)) with (x + n * y) in H by lia.
  erewrite nth_error_nth by exact H. reflexivity.
Qed.

Lemma flip_node same env e t n b d : (forall x y, same x y = true -> x = y) -> 0 < n -> 0 < b -> nonconst e -> ev env e = Ok t -> matrix n b t ->
  const_axis_data 0%R 0 0 1%R [n; b] = Ok d ->
  exists f tf, mk_binary Rnum same BSub (EConst (@pair shape (list R) [n; b] d)) (EUn URound e) = Ok f /\ f <> EUn URound e /\ nonconst f /\ ev env f = Ok tf /\ matrix n b tf /\
    forall x y, x < n -> y < b -> entry 0%R n tf x y = ((if x =? 0 then 1 else 0) - Rround (entry 0 n t x y))%R.
Proof.
  intros Hs Hn Hb Hc He Ht Ed.
  destruct (axis_data n b Hn Hb) as (d' & E1 & M & H). assert (d' = d) as -> by congruence. clear E1.
  destruct (un_mat fresh use env URound e t n b He Ht) as (t1 & A1 & A2 & A3).
  assert (S0 : same (EConst ([n; b], d)) (EUn URound e) = false) by (destruct (same _ _) eqn:E; [apply Hs in E; discriminate|reflexivity]).
  cbn [mk_binary]. change (@pair shape (list R) [n; b] d) with (@pair (list nat) (list R) [n; b] d) in *. rewrite S0. cbn [cview_of]. pose proof M as (_ & _ & L & _). cbn [snd] in L.
  destruct (Nat.eq_dec (n * b) 1) as [E1|E1].
  - assert (n = 1 /\ b = 1) as [-> ->] by nia. destruct d as [|v [|? ?]]; cbn in L; try lia.
    assert (Ev : v = 1%R). { specialize (H 0 0 ltac:(lia) ltac:(lia)). exact H. } subst v.
    unfold const_is, one_elem. cbn [snd fst]. change (1 =? n_elems [1; 1]) with true. change (n_zero Rnum) with 0%R. rewrite Reqb_false by lra. cbn iota. cbn [mk_unary]. change (n_zero Rnum) with 0%R. rewrite Reqb_false by lra. cbn [fold_node].
    destruct (un_mat fresh use env (USubL 1%R) _ t1 1 1 A1 A2) as (t2 & B1 & B2 & B3).
    eexists _, t2. split; [reflexivity|]. split; [discriminate|]. split; [exact I|]. split; [exact B1|]. split; [exact B2|].
    intros x y Hx Hy. rewrite B3, A3 by auto. assert (x = 0) as -> by lia. reflexivity.
  - assert (C1 : const_is Rnum ([n; b], d) (n_zero Rnum) = false) by (unfold const_is; cbn [snd]; destruct d as [|? [|? ?]]; cbn in L; try reflexivity; lia).
    assert (C2 : one_elem ([n; b], d) = false) by (unfold one_elem; cbn [fst]; apply Nat.eqb_neq; cbn; lia).
    rewrite C1, C2. cbn [cview_of].
    destruct (bin_mat fresh use env BSub (EConst ([n; b], d)) (EUn URound e) ([n; b], d) t1 n b eq_refl M A1 A2) as (t2 & B1 & B2 & B3).
    eexists _, t2. split; [reflexivity|]. split; [discriminate|]. split; [exact I|]. split; [exact B1|]. split; [exact B2|].
    intros x y Hx Hy. rewrite B3, A3, H by auto. reflexivity.
Qed.

Lemma pseudo_ok same env m w hb vb n h b e t : (forall x y, same x y = true -> x = y) -> nonconst e -> 
  r_nin m = n -> r_w m = Some w -> r_hb m = Some hb -> r_vb m = Some vb ->
  matrix h n (env w) -> vector h (env hb) -> vector n (env vb) -> ev env e = Ok t -> matrix n b t ->
  let en := energy n h (entry 0%R h (env w)) (fun j => at_ (env hb) j) (fun q => at_ (env vb) q) in
  let x y q := Rround (entry 0%R n t q y) in
  rbm_pseudo_cost_value Rnum fresh use INR same m env e [n; b] =
    Ok ([1], [mean b (fun y => INR n * ln (logistic (en (fun q => (if q =? 0 then 1 else 0) - x y q) - en (x y))))%R]).
Proof.
  intros Hs Hc Hm R1 R2 R3 Mw Mh Mv He Ht en x. assert (Hn : 0 < n) by apply Mv. assert (Hb : 0 < b) by apply Ht.
  destruct (axis_data n b Hn Hb) as (d & E1 & _). unfold rbm_pseudo_cost_value. change (n_zero Rnum) with 0%R. change (n_one Rnum) with 1%R. rewrite E1. cbn [bind].
  cbn [mk_unary]. rewrite fold_nonconst by auto. cbn [bind].
  destruct (flip_node same env e t n b d Hs Hn Hb Hc He Ht E1) as (f & tf & F1 & F2 & F3 & F4 & F5 & F6). rewrite F1. cbn [bind].
  rewrite !(fe_build same m w hb vb) by auto. cbn [bind].
  destruct (un_mat fresh use env URound e t n b He Ht) as (t1 & A1 & A2 & A3).
  destruct (fe_value env w hb vb n h b _ t1 Mw Mh Mv A1 A2) as (u1 & G1 & G2 & G3).
  destruct (fe_value env w hb vb n h b _ tf Mw Mh Mv F4 F5) as (u2 & H1 & H2 & H3).
  assert (S0 : same (fe_node w hb vb f) (fe_node w hb vb (EUn URound e)) = false).
  { destruct (same _ _) eqn:E; [|reflexivity]. apply Hs in E. unfold fe_node in E. injection E as E _. contradiction. }
  assert (Eb : mk_binary Rnum same BSub (fe_node w hb vb f) (fe_node w hb vb (EUn URound e)) = Ok (EBin BSub (fe_node w hb vb f) (fe_node w hb vb (EUn URound e)))).
  { unfold mk_binary. rewrite S0. reflexivity. }
  rewrite Eb. cbn [bind]. set (D := EBin BSub (fe_node w hb vb f) (fe_node w hb vb (EUn URound e))) in *.
  assert (Es : mk_sigmoid Rnum D = Ok (EUn (UDivL 1%R) (EUn (UAddL 1%R) (EUn UExp (EUn UNeg D))))).
  { unfold mk_sigmoid. change (mk_unary Rnum UNeg D) with (Ok (EUn UNeg D)). cbn [mk_unary bind fold_node]. change (n_zero Rnum) with 0%R. change (n_one Rnum) with 1%R. rewrite !Reqb_false by lra. reflexivity. }
  rewrite Es. cbn [bind mk_unary fold_node].
  destruct (bin_samples env BSub _ _ u2 u1 b H1 H2 G1 G2) as (s0 & I1 & I2 & I3). fold D in I1.
  destruct (un_samples env UNeg _ s0 b I1 I2) as (s1 & J1 & J2 & J3).
  destruct (un_samples env UExp _ s1 b J1 J2) as (s2 & K1 & K2 & K3).
  destruct (un_samples env (UAddL 1%R) _ s2 b K1 K2) as (s3 & L1 & L2 & L3).
  destruct (un_samples env (UDivL 1%R) _ s3 b L1 L2) as (s4 & M1 & M2 & M3).
  destruct (un_samples env ULog _ s4 b M1 M2) as (s5 & N1 & N2 & N3).
  assert (V : forall y, y < b -> at_ s5 y = ln (logistic (en (fun q => (if q =? 0 then 1 else 0) - x y q) - en (x y)))%R).
  { intros y Hy. rewrite N3, M3, L3, K3, J3, I3, H3, G3 by auto. cbn [meaning bmeaning n_log n_div n_add n_exp n_neg n_sub Rnum]. unfold logistic.
    assert (X1 : energy n h (entry 0%R h (env w)) (fun j => at_ (env hb) j) (fun q => at_ (env vb) q) (fun q => entry 0%R n tf q y) = en (fun q => (if q =? 0 then 1 else 0) - x y q)%R).
    { apply energy_ext. intros q Hq. now apply F6. }
    assert (X2 : energy n h (entry 0%R h (env w)) (fun j => at_ (env hb) j) (fun q => at_ (env vb) q) (fun q => entry 0%R n t1 q y) = en (x y)).
    { apply energy_ext. intros q Hq. now apply A3. }
    rewrite X1, X2. reflexivity. }
  rewrite Hm. change (n_zero Rnum) with 0%R. change (n_one Rnum) with 1%R. change (n_neg Rnum 1%R) with (-1)%R.
  pose proof (lt_0_INR n Hn) as Pn. rewrite (Reqb_false 0 (INR n)) by lra. cbn [bind].
  set (Lg := EUn ULog (EUn (UDivL 1%R) (EUn (UAddL 1%R) (EUn UExp (EUn UNeg D))))) in *.
  destruct (n_eqb Rnum 1%R (INR n)) eqn:E1'.
  - apply Reqb_iff in E1'. rewrite <- E1'. cbn [bind]. rewrite (mean_ok env Lg s5 b); auto. do 3 f_equal. apply mean_ext. intros y Hy. rewrite V by auto. lra.
  - rewrite Reqb_false by lra. cbn [bind].
    destruct (un_samples env (UMulL (INR n)) _ s5 b N1 N2) as (s6 & O1 & O2 & O3). fold Lg in O1.
    rewrite (mean_ok env _ s6 b); auto. do 3 f_equal. apply mean_ext. intros y Hy. rewrite O3, V by auto. reflexivity.
Qed.

(** ---- reconstruction cost ---- *)
Lemma rec_ok same env n b e v t tv : (forall x y, same x y = true -> x = y) -> nonconst e -> nonconst v ->
  ev env e = Ok t -> matrix n b t -> ev env v = Ok tv -> matrix n b tv ->
  rbm_reconstruction_cost_value Rnum fresh use INR same env e v = Ok ([1], [mean b (fun y => loglik n (fun q => entry 0%R n t q y) (fun q => entry 0%R n tv q y))]).
Proof.
  intros Hs Ce Cv He Ht Hv Htv. unfold rbm_reconstruction_cost_value.
  destruct (un_mat fresh use env ULog v tv n b Hv Htv) as (t1 & A1 & A2 & A3).
  destruct (un_mat fresh use env (USubL 1%R) e t n b He Ht) as (t2 & B1 & B2 & B3).
  destruct (un_mat fresh use env (USubL 1%R) v tv n b Hv Htv) as (t3 & C1 & C2 & C3).
  destruct (un_mat fresh use env ULog _ t3 n b C1 C2) as (t4 & D1 & D2 & D3).
  destruct (bin_mat fresh use env BMul _ _ t2 t4 n b B1 B2 D1 D2) as (t5 & E1 & E2 & E3).
  assert (U : forall x, nonconst x -> mk_unary Rnum (USubL (n_one Rnum)) x = Ok (EUn (USubL 1%R) x)).
  { intros x Hx. cbn [mk_unary]. change (n_zero Rnum) with 0%R. change (n_one Rnum) with 1%R. rewrite Reqb_false by lra. destruct x; cbn in Hx; tauto. }
  rewrite !U by auto. replace (mk_unary Rnum ULog v) with (Ok (EUn (T := R) ULog v)) by (cbn [mk_unary]; now rewrite fold_nonconst). cbn [bind].
  assert (P : exists p tp, mk_binary Rnum same BMul e (EUn ULog v) = Ok p /\ nonconst p /\ ev env p = Ok tp /\ matrix n b tp /\
    forall x y, x < n -> y < b -> entry 0%R n tp x y = (entry 0 n t x y * ln (entry 0 n tv x y))%R).
  { unfold mk_binary. destruct (same e (EUn ULog v)) eqn:Es.
    - apply Hs in Es. subst e. cbn [mk_unary]. change (n_zero Rnum) with 0%R. change (n_one Rnum) with 1%R. change (n_two Rnum) with 2%R. rewrite !Reqb_false by lra. cbn [fold_node].
      destruct (un_mat fresh use env (UPow 2%R) _ t n b He Ht) as (p & P1 & P2 & P3). eexists _, p. split; [reflexivity|]. split; [exact I|]. split; [exact P1|]. split; [exact P2|].
      intros x y Hx Hy. rewrite P3 by auto. assert (tt : t1 = t) by congruence. subst t1. rewrite A3 by auto. cbn [meaning n_pow n_log Rnum]. change 2%R with (IZR 2). rewrite Rpow_IZR. unfold powerRZ. change (Pos.to_nat 2) with 2. ring.
    - rewrite (cview_nonconst e Ce). cbn [cview_of].
      destruct (bin_mat fresh use env BMul e (EUn ULog v) t t1 n b He Ht A1 A2) as (p & P1 & P2 & P3). eexists _, p. split; [reflexivity|]. split; [exact I|]. split; [exact P1|]. split; [exact P2|].
      intros x y Hx Hy. rewrite P3, A3 by auto. reflexivity. }
  destruct P as (p & tp & P1 & P2 & P3 & P4 & P5). rewrite P1. cbn [bind].
  cbn [mk_unary fold_node bind].
  assert (Q : mk_binary Rnum same BMul (EUn (USubL 1%R) e) (EUn ULog (EUn (USubL 1%R) v)) = Ok (EBin BMul (EUn (USubL 1%R) e) (EUn ULog (EUn (USubL 1%R) v)))).
  { unfold mk_binary. destruct (same _ _) eqn:Es; [apply Hs in Es; discriminate|reflexivity]. }
  rewrite Q. cbn [bind].
  assert (Q2 : mk_binary Rnum same BAdd p (EBin BMul (EUn (USubL 1%R) e) (EUn ULog (EUn (USubL 1%R) v))) = Ok (EBin BAdd p (EBin BMul (EUn (USubL 1%R) e) (EUn ULog (EUn (USubL 1%R) v))))).
  { unfold mk_binary. rewrite (cview_nonconst p P2). reflexivity. }
  rewrite Q2. cbn [bind].
  destruct (bin_mat fresh use env BAdd p _ tp t5 n b P3 P4 E1 E2) as (t6 & F1 & F2 & F3).
  destruct (sum0 env _ t6 n b F1 F2) as (t7 & G1 & G2 & G3 & G4).
  assert (Hb : 0 < b) by apply Ht.
  rewrite (mean_ok env _ t7 b); auto. do 3 f_equal. apply mean_ext. intros y Hy. rewrite G4 by auto. unfold loglik. apply sumn_ext. intros q Hq.
  rewrite F3, P5, E3, B3, D3, C3 by auto. reflexivity.
Qed.
End P.

Lemma ln_le' a c : (0 < a)%R -> (a <= c)%R -> (ln a <= ln c)%R.
Proof. intros H [L| ->]; [left; now apply ln_increasing|right; reflexivity]. Qed.
Lemma Rround_IZR z : Rround (IZR z) = IZR z.
Proof.
  assert (H : forall k, Int_part (IZR k + / 2) = k). { intros k. unfold Int_part. assert ((k + 1)%Z = up (IZR k + / 2)); [|lia]. apply tech_up; rewrite plus_IZR; lra. }
  unfold Rround. destruct (Rle_dec 0 (IZR z)) as [_|_]; [now rewrite H|]. replace (- IZR z)%R with (IZR (- z)) by apply opp_IZR. rewrite H, <- opp_IZR. f_equal. lia.
Qed.
Lemma Rround_1 : Rround 1 = 1%R.
Proof. exact (Rround_IZR 1). Qed.

(** a sum over all hidden configurations factors *)
Lemma fold_sum_app (l l' : list R) : fold_right Rplus 0%R (l ++ l') = (fold_right Rplus 0 l + fold_right Rplus 0 l')%R.
Proof. induction l as [|x l IH]; cbn [app fold_right]; [lra|]. rewrite IH. lra. Qed.
Lemma sumn_last_if a c k x : Sum (fun j => (a j * (if j =? k then x else c j))%R) (S k) = (Sum (fun j => a j * c j)%R k + a k * x)%R.
Proof.
  cbn [sumn]. rewrite Nat.eqb_refl. f_equal. apply sumn_ext. intros j Hj. rewrite (proj2 (Nat.eqb_neq j k)) by lia. reflexivity.
Qed.
Lemma configs_zero h c : In c (configs h) -> forall j, h <= j -> c j = 0%R.
Proof.
  revert c. induction h as [|h IH]; cbn [configs]; intros c Hc j Hj.
  - destruct Hc as [<-|[]]. reflexivity.
  - apply in_flat_map in Hc. destruct Hc as (c0 & H0 & [<-|[<-|[]]]); [apply IH; auto; lia|]. rewrite (proj2 (Nat.eqb_neq j h)) by lia. apply IH; auto; lia.
Qed.
Lemma configs_sum (a : nat -> R) h : fold_right Rplus 0%R (map (fun c => exp (Sum (fun j => a j * c j)%R h)) (configs h)) = exp (Sum (fun j => ln (1 + exp (a j))) h).
Proof.
  induction h as [|h IH].
  - cbn. rewrite exp_0. lra.
  - cbn [sumn configs]. rewrite exp_plus, exp_ln by (pose proof (exp_pos (a h)); lra). rewrite <- IH. clear IH.
    pose proof (configs_zero h) as Z. induction (configs h) as [|c l IHl]; [cbn; lra|]. cbn [flat_map app map fold_right].
    rewrite IHl by (intros c' Hc'; apply Z; now right).
    rewrite Nat.eqb_refl. rewrite (Z c (or_introl eq_refl) h) by lia.
    assert (Es : Sum (fun j => a j * (if j =? h then 1 else c j))%R h = Sum (fun j => a j * c j)%R h).
    { apply sumn_ext. intros j Hj. rewrite (proj2 (Nat.eqb_neq j h)) by lia. reflexivity. }
    rewrite Es. rewrite !exp_plus, Rmult_0_r, Rmult_1_r, exp_0. ring.
Qed.
Lemma sumn_add f g n : Sum (fun j => (f j + g j)%R) n = (Sum f n + Sum g n)%R.
Proof. induction n as [|n IH]; cbn [sumn]; [lra|]. rewrite IH. lra. Qed.

(** The specification's free energy is what the name says: exp (- energy v) is the sum of
    exp (- joint energy) over all configurations of the hidden units. *)
Lemma C57_energy_meaning_lemma :
  forall (n h : nat) (W : nat -> nat -> R) (hb vb v : nat -> R),
    exp (- energy n h W hb vb v) = fold_right Rplus 0%R (map (fun c => exp (- joint n h W hb vb v c)) (configs h)) /\
    length (configs h) = 2 ^ h.
Proof.
  intros n h W hb vb v. split.
  - unfold energy, joint. rewrite Ropp_involutive, exp_plus. rewrite <- (configs_sum (fun j => (Sum (fun q => v q * W j q) n + hb j)%R) h).
    induction (configs h) as [|c l IH]; cbn [map fold_right]; [lra|]. rewrite <- IH, Ropp_involutive, exp_plus.
    replace (Sum (fun j => ((Sum (fun q => v q * W j q) n + hb j) * c j)%R) h) with (Sum (fun j => Sum (fun q => v q * W j q) n * c j)%R h + Sum (fun j => hb j * c j)%R h)%R; [ring|].
    rewrite <- sumn_add. apply sumn_ext. intros j _. ring.
  - induction h as [|h IH]; [reflexivity|]. cbn [configs Nat.pow]. rewrite <- IH. clear IH. induction (configs h) as [|c l IH]; [reflexivity|]. cbn [flat_map app length] in *. rewrite IH. lia.
Qed.

(** The free energy of a batch: for every rbm as constructed, all values of its parameters and
    every node holding a batch of b visible vectors, the node that free_energy returns holds b
    values, the energies of the vectors under the rbm's parameters; its shape is [1, b] ([1] for
    one vector). *)
Lemma C57_free_energy_lemma :
  forall (of_nat : nat -> R) same fresh use (env : nat -> tens R) (n h b : nat) scope st m st',
    0 < n -> 0 < h -> 0 < b ->
    rbm_new Rnum of_nat n h scope st = (m, st') ->
    exists w hb vb, rbm_variables m = [Some w; Some hb; Some vb] /\
    (initialized env st' w -> initialized env st' hb -> initialized env st' vb ->
      forall e t, eval Rnum fresh use env e = Ok t -> matrix n b t ->
      exists e' t', rbm_free_energy Rnum same m e = Ok e' /\ eval Rnum fresh use env e' = Ok t' /\
        fst t' = (if b =? 1 then [1] else [1; b]) /\ length (snd t') = b /\
        forall y, y < b -> nth y (snd t') 0%R =
          energy n h (entry 0%R h (env w)) (fun j => nth j (snd (env hb)) 0%R) (fun q => nth q (snd (env vb)) 0%R) (fun q => entry 0%R n t q y)).
Proof.
  intros of_nat same fresh use env n h b scope st m st' Hn Hh Hb E.
  destruct (rbm_new_vars _ _ _ _ _ _ _ _ E) as (w & hb & vb & v1 & v2 & v3 & A1 & A2 & A3 & D1 & S1 & D2 & S2 & D3 & S3).
  exists w, hb, vb. split; [unfold rbm_variables; now rewrite A1, A2, A3|]. intros I1 I2 I3 e t He Ht.
  pose proof (init_matrix _ _ _ _ _ _ I1 D1 S1 Hh Hn) as Mw. pose proof (init_vector _ _ _ _ _ I2 D2 S2 Hh) as Mh. pose proof (init_vector _ _ _ _ _ I3 D3 S3 Hn) as Mv.
  destruct (fe_value_full fresh use env w hb vb n h b e t Mw Mh Mv He Ht) as (u & U1 & Us & U2 & U3).
  exists (fe_node w hb vb e), u. split; [now apply fe_build|]. split; [exact U1|]. pose proof U2 as (_ & L & _). split; [exact Us|split; [exact L|exact U3]].
Qed.

(** The cost whose gradients train follows: the mean energy of the input minus that of the
    chain's end. *)
Lemma C57_cost_lemma :
  forall (of_nat : nat -> R) same fresh use (env : nat -> tens R) (n h b b' : nat) scope st m st',
    0 < n -> 0 < h -> 0 < b -> 0 < b' ->
    rbm_new Rnum of_nat n h scope st = (m, st') ->
    exists w hb vb, rbm_variables m = [Some w; Some hb; Some vb] /\
    (initialized env st' w -> initialized env st' hb -> initialized env st' vb ->
      forall input t chain tc, eval Rnum fresh use env input = Ok t -> matrix n b t -> eval Rnum fresh use env chain = Ok tc -> matrix n b' tc ->
      let en := energy n h (entry 0%R h (env w)) (fun j => nth j (snd (env hb)) 0%R) (fun q => nth q (snd (env vb)) 0%R) in
      rbm_cost_value Rnum fresh use INR same m env input chain =
        Ok ([1], [(mean b (fun y => en (fun q => entry 0 n t q y)) - mean b' (fun y => en (fun q => entry 0 n tc q y)))%R])).
Proof.
  intros of_nat same fresh use env n h b b' scope st m st' Hn Hh Hb Hb' E.
  destruct (rbm_new_vars _ _ _ _ _ _ _ _ E) as (w & hb & vb & v1 & v2 & v3 & A1 & A2 & A3 & D1 & S1 & D2 & S2 & D3 & S3).
  exists w, hb, vb. split; [unfold rbm_variables; now rewrite A1, A2, A3|]. intros I1 I2 I3 e t ch tc He Ht Hc Htc en.
  pose proof (init_matrix _ _ _ _ _ _ I1 D1 S1 Hh Hn) as Mw. pose proof (init_vector _ _ _ _ _ I2 D2 S2 Hh) as Mh. pose proof (init_vector _ _ _ _ _ I3 D3 S3 Hn) as Mv.
  unfold rbm_cost_value. rewrite !(fe_build same m w hb vb) by auto. cbn [bind].
  destruct (fe_value fresh use env w hb vb n h b e t Mw Mh Mv He Ht) as (u & U1 & U2 & U3).
  destruct (fe_value fresh use env w hb vb n h b' ch tc Mw Mh Mv Hc Htc) as (u' & U1' & U2' & U3').
  rewrite (mean_ok fresh use env _ u b U1 U2), (mean_ok fresh use env _ u' b' U1' U2'). cbn [bind].
  rewrite (mean_ext b _ _ U3), (mean_ext b' _ _ U3'). reflexivity.
Qed.

(** The cost reported with persistent chains, as it is computed: n times the mean logarithm of
    the logistic function of the energy difference to x', where x is the rounded input and x'
    is 1 - x in unit 0 and -x in all other units. *)
Lemma C57_pseudo_likelihood_lemma :
  forall (of_nat : nat -> R) same fresh use (env : nat -> tens R) (n h b : nat) scope st m st',
    (forall x y, same x y = true -> x = y) ->
    0 < n -> 0 < h -> 0 < b ->
    rbm_new Rnum of_nat n h scope st = (m, st') ->
    exists w hb vb, rbm_variables m = [Some w; Some hb; Some vb] /\
    (initialized env st' w -> initialized env st' hb -> initialized env st' vb ->
      forall e t, nonconst e -> eval Rnum fresh use env e = Ok t -> matrix n b t ->
      let en := energy n h (entry 0%R h (env w)) (fun j => nth j (snd (env hb)) 0%R) (fun q => nth q (snd (env vb)) 0%R) in
      let x y q := Rround (entry 0%R n t q y) in
      let x' y q := (if q =? 0 then 1 - x y q else - x y q)%R in
      rbm_pseudo_cost_value Rnum fresh use INR same m env e [n; b] =
        Ok ([1], [mean b (fun y => INR n * ln (logistic (en (x' y) - en (x y))))%R])).
Proof.
  intros of_nat same fresh use env n h b scope st m st' Hs Hn Hh Hb E.
  destruct (rbm_new_vars _ _ _ _ _ _ _ _ E) as (w & hb & vb & v1 & v2 & v3 & A1 & A2 & A3 & D1 & S1 & D2 & S2 & D3 & S3).
  assert (En : r_nin m = n) by (unfold rbm_new in E; cbn [alloc] in E; injection E as <- _; reflexivity).
  exists w, hb, vb. split; [unfold rbm_variables; now rewrite A1, A2, A3|]. intros I1 I2 I3 e t Hc He Ht en x x'.
  pose proof (init_matrix _ _ _ _ _ _ I1 D1 S1 Hh Hn) as Mw. pose proof (init_vector _ _ _ _ _ I2 D2 S2 Hh) as Mh. pose proof (init_vector _ _ _ _ _ I3 D3 S3 Hn) as Mv.
  rewrite (pseudo_ok fresh use same env m w hb vb n h b e t); auto. do 3 f_equal. apply mean_ext. intros y Hy. do 4 f_equal. apply energy_ext. intros q Hq. unfold x'.
  destruct (q =? 0); unfold x; lra.
Qed.

(** So it is the pseudo-likelihood of flipping unit 0 if all other units of all samples round
    to zero. *)
Lemma C57_pseudo_likelihood_flip_lemma :
  forall (of_nat : nat -> R) same fresh use (env : nat -> tens R) (n h b : nat) scope st m st',
    (forall x y, same x y = true -> x = y) ->
    0 < n -> 0 < h -> 0 < b ->
    rbm_new Rnum of_nat n h scope st = (m, st') ->
    exists w hb vb, rbm_variables m = [Some w; Some hb; Some vb] /\
    (initialized env st' w -> initialized env st' hb -> initialized env st' vb ->
      forall e t, nonconst e -> eval Rnum fresh use env e = Ok t -> matrix n b t ->
      let en := energy n h (entry 0%R h (env w)) (fun j => nth j (snd (env hb)) 0%R) (fun q => nth q (snd (env vb)) 0%R) in
      let x y q := Rround (entry 0%R n t q y) in
      (forall q y, 0 < q -> q < n -> y < b -> x y q = 0%R) ->
      rbm_pseudo_cost_value Rnum fresh use INR same m env e [n; b] =
        Ok ([1], [mean b (fun y => INR n * ln (logistic (en (flip0 (x y)) - en (x y))))%R])).
Proof.
  intros of_nat same fresh use env n h b scope st m st' Hs Hn Hh Hb E.
  destruct (C57_pseudo_likelihood_lemma of_nat same fresh use env n h b scope st m st' Hs Hn Hh Hb E) as (w & hb & vb & V & H).
  exists w, hb, vb. split; [exact V|]. intros I1 I2 I3 e t Hc He Ht en x Hx. rewrite (H I1 I2 I3 e t Hc He Ht). do 3 f_equal. apply mean_ext. intros y Hy. do 4 f_equal.
  apply energy_ext. intros q Hq. unfold flip0. destruct (Nat.eqb_spec q 0) as [->|Nq]; [reflexivity|]. fold (x y q). rewrite (Hx q y) by lia. lra.
Qed.

(** Finding: otherwise it is not. With two visible units, one hidden one, weights and hidden
    bias 0, visible biases 0 and 1 and the sample (0, 1), flipping unit 0 changes nothing, but
    the cost is not 2 ln (1/2). *)
Lemma C57_pseudo_likelihood_refuted_lemma :
  exists (env : nat -> tens R) (m : rbm) (st : store),
    rbm_new Rnum INR 2 1 "r" [] = (m, st) /\ rbm_variables m = [Some 0; Some 1; Some 2] /\
    initialized env st 0 /\ initialized env st 1 /\ initialized env st 2 /\ env 3 = ([2; 1], [0%R; 1%R]) /\
    let en := energy 2 1 (entry 0%R 1 (env 0)) (fun j => nth j (snd (env 1)) 0%R) (fun q => nth q (snd (env 2)) 0%R) in
    let x q := nth q [0%R; 1%R] 0%R in
    (INR 2 * ln (logistic (en (flip0 x) - en x)))%R = (2 * ln (1 / 2))%R /\
    forall same fresh use, (forall a b, same a b = true -> a = b) ->
      exists c, rbm_pseudo_cost_value Rnum fresh use INR same m env (EVar 3) [2; 1] = Ok ([1], [c]) /\ c <> (2 * ln (1 / 2))%R.
Proof.
  pose (env := fun k : nat => match k with 0 => ([1; 2], [0%R; 0%R]) | 1 => ([1], [0%R]) | 2 => ([2], [0%R; 1%R]) | _ => ([2; 1], [0%R; 1%R]) end : tens R).
  destruct (rbm_new Rnum INR 2 1 "r" []) as [m st] eqn:E. pose proof E as E0. exists env, m, st. split; [reflexivity|].
  unfold rbm_new in E. cbn [alloc] in E. injection E as Em Es. cbn [app length] in Em, Es.
  assert (V : rbm_variables m = [Some 0; Some 1; Some 2]) by (rewrite <- Em; reflexivity). split; [exact V|].
  assert (I0 : initialized env st 0) by (rewrite <- Es; eexists; split; [reflexivity|split; reflexivity]).
  assert (I1 : initialized env st 1) by (rewrite <- Es; eexists; split; [reflexivity|split; reflexivity]).
  assert (I2 : initialized env st 2) by (rewrite <- Es; eexists; split; [reflexivity|split; reflexivity]).
  split; [exact I0|]. split; [exact I1|]. split; [exact I2|]. split; [reflexivity|].
  assert (En : forall v, energy 2 1 (entry 0%R 1 (env 0)) (fun j => nth j (snd (env 1)) 0%R) (fun q => nth q (snd (env 2)) 0%R) v = (- (ln 2 + v 1%nat))%R).
  { intros v. unfold energy. cbn [sumn]. unfold entry. cbn [env snd nth Nat.add Nat.mul]. rewrite !Rmult_0_r, !Rplus_0_l, exp_0, Rmult_1_r. f_equal. }
  cbn zeta. split.
  - rewrite !En. unfold flip0. cbn [nth Nat.eqb INR]. unfold logistic. replace (- (- (ln 2 + 1) - - (ln 2 + 1)))%R with 0%R by lra. rewrite exp_0. do 2 f_equal; lra.
  - intros same fresh use Hs. destruct (C57_pseudo_likelihood_lemma INR same fresh use env 2 1 1 "r" [] m st Hs) as (w & hb & vb & V' & H); auto.
    rewrite V in V'. injection V' as <- <- <-. eexists. split.
    + apply (H I0 I1 I2 (EVar 3) (env 3)); [exact I|reflexivity|repeat split; auto].
    + unfold mean. cbn [sumn]. rewrite !En. cbn [Nat.eqb]. unfold entry. cbn [env snd nth Nat.add Nat.mul].
      rewrite Rround_1. unfold logistic.
      assert (X : (ln (1 / (1 + exp (-2))) > ln (1 / 2))%R).
      { apply ln_increasing; [lra|]. assert (exp (-2) < 1)%R by (rewrite <- exp_0; apply exp_increasing; lra). pose proof (exp_pos (-2)). 
        unfold Rdiv. rewrite !Rmult_1_l. apply Rinv_lt_contravar; [|lra]. apply Rmult_lt_0_compat; lra. }
      cbn [INR]. replace (- (- (ln 2 + - (1)) - - (ln 2 + 1)))%R with (-2)%R by lra. intros C. lra.
Qed.


(** The cost reported without a persistent chain: the mean log-likelihood of the input under
    the visible distribution. *)
Lemma C57_reconstruction_lemma :
  forall same fresh use (env : nat -> tens R) (n b : nat) input t visible tv,
    (forall x y, same x y = true -> x = y) -> nonconst input -> nonconst visible ->
    eval Rnum fresh use env input = Ok t -> matrix n b t -> eval Rnum fresh use env visible = Ok tv -> matrix n b tv ->
    rbm_reconstruction_cost_value Rnum fresh use INR same env input visible =
      Ok ([1], [mean b (fun y => loglik n (fun q => entry 0%R n t q y) (fun q => entry 0%R n tv q y))]).
Proof. intros same fresh use env n b e t v tv Hs C1 C2 H1 M1 H2 M2. now apply rec_ok. Qed.

(** Finding: it is not negated. For binary inputs and probabilities strictly between 0 and 1
    it is at most 0, and it grows as the probabilities get closer to the input: lower is worse. *)
Lemma C57_reconstruction_sign_lemma :
  forall (n b : nat) (x p p' : nat -> nat -> R), 0 < b ->
    (forall y q, y < b -> q < n -> x y q = 0%R \/ x y q = 1%R) ->
    (forall y q, y < b -> q < n -> (0 < p y q < 1)%R /\ (0 < p' y q < 1)%R /\ (Rabs (x y q - p' y q) <= Rabs (x y q - p y q))%R) ->
    (mean b (fun y => loglik n (x y) (p y)) <= mean b (fun y => loglik n (x y) (p' y)) <= 0)%R.
Proof.
  intros n b x p p' Hb Hx Hp. pose proof (lt_0_INR b Hb) as Pb.
  assert (Term : forall y q, y < b -> q < n ->
    (x y q * ln (p y q) + (1 - x y q) * ln (1 - p y q) <= x y q * ln (p' y q) + (1 - x y q) * ln (1 - p' y q) <= 0)%R).
  { intros y q Hy Hq. destruct (Hp y q Hy Hq) as (P1 & P2 & P3). destruct (Hx y q Hy Hq) as [E|E]; rewrite E in *.
    - rewrite !Rminus_0_l, !Rabs_Ropp, !Rabs_right in P3 by lra. assert (ln (1 - p y q) <= ln (1 - p' y q))%R by (apply ln_le'; lra).
      assert (ln (1 - p' y q) <= 0)%R by (rewrite <- ln_1; apply ln_le'; lra). lra.
    - rewrite !Rabs_right in P3 by lra. assert (ln (p y q) <= ln (p' y q))%R by (apply ln_le'; lra).
      assert (ln (p' y q) <= 0)%R by (rewrite <- ln_1; apply ln_le'; lra). lra. }
  assert (Mono : forall k (f g : nat -> R), (forall i, i < k -> (f i <= g i)%R) -> (Sum f k <= Sum g k)%R).
  { induction k as [|k IH]; intros f g H; cbn [sumn]; [lra|]. pose proof (IH f g (fun i Hi => H i (Nat.lt_lt_succ_r _ _ Hi))). pose proof (H k (Nat.lt_succ_diag_r k)). lra. }
  assert (Z : forall k, Sum (fun _ => 0%R) k = 0%R) by (induction k as [|k IH]; cbn [sumn]; [reflexivity|rewrite IH; lra]).
  unfold mean. split.
  - apply Rmult_le_compat_r; [left; now apply Rinv_0_lt_compat|]. apply Mono. intros y Hy. apply Mono. intros q Hq. now apply Term.
  - assert (Hl : (Sum (fun y => loglik n (x y) (p' y)) b <= 0)%R).
    { pose proof (Mono b (fun y => loglik n (x y) (p' y)) (fun _ => 0%R)) as M1. rewrite Z in M1. apply M1. intros y Hy. unfold loglik.
      pose proof (Mono n (fun q => (x y q * ln (p' y q) + (1 - x y q) * ln (1 - p' y q))%R) (fun _ => 0%R)) as M2. rewrite Z in M2. apply M2. intros q Hq. now apply Term. }
    pose proof (Rinv_0_lt_compat _ Pb). unfold Rdiv. nra.
Qed.

(** Hypotheses met: the rbm of the refutation above, with a batch of two samples. *)
Lemma C57_nonvacuous_lemma :
  exists (env : nat -> tens R) (m : rbm) (st : store),
    rbm_new Rnum INR 2 1 "r" [] = (m, st) /\ rbm_variables m = [Some 0; Some 1; Some 2] /\
    initialized env st 0 /\ initialized env st 1 /\ initialized env st 2 /\
    eval Rnum (fun _ => 0%R) false env (EVar 3) = Ok ([2; 2], [0%R; 1%R; 1%R; 0%R]) /\
    matrix 2 2 ([2; 2], [0%R; 1%R; 1%R; 0%R]) /\ nonconst (EVar 3).
Proof.
  exists (fun k : nat => match k with 0 => ([1; 2], [0%R; 0%R]) | 1 => ([1], [0%R]) | 2 => ([2], [0%R; 1%R]) | _ => ([2; 2], [0%R; 1%R; 1%R; 0%R]) end : tens R).
  do 2 eexists. split; [reflexivity|]. split; [reflexivity|].
  split; [eexists; split; [reflexivity|split; reflexivity]|]. split; [eexists; split; [reflexivity|split; reflexivity]|]. split; [eexists; split; [reflexivity|split; reflexivity]|].
  split; [reflexivity|]. split; [repeat split; auto; lia|exact I].
Qed.
