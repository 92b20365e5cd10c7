(** Matrix operations on tensors that hold matrices. *)
From Coq Require Import Ring Lia.
From Verif Require Import Common ShapeModel ShapeSpec ShapeProofs TransformSpec TransformModel TransformProofs TransformLaws MatmulSpec MatmulModel Matmul2Proofs MatmulLaws ElemSpec ElemModel ElemProofs ElemLaws NumSpec GradModel MatrixSpec.

Lemma matrix_def {T} c r (t : tens T) : matrix c r t -> is_fully_defined (fst t) = true.
Proof.
  intros (Hc & Hr & L & [E|[_ E]]); rewrite E; [|reflexivity]. cbn. destruct c; [lia|]. destruct r; [lia|]. reflexivity.
Qed.
Lemma matrix_n {T} c r (t : tens T) : matrix c r t -> n_elems (fst t) = c * r.
Proof. intros (Hc & Hr & L & [E|[E1 E]]); rewrite E; cbn; lia. Qed.
Lemma matrix_dims {T} c r (t : tens T) : matrix c r t -> nth 0 (fst t) 1 = c /\ nth 1 (fst t) 1 = r /\ skipn 2 (fst t) = [].
Proof. intros (Hc & Hr & L & [E|[E1 E]]); rewrite E; cbn; repeat split; nia. Qed.

Lemma sumn_ext {T} (z : T) add f g n : (forall i, i < n -> f i = g i) -> sumn z add f n = sumn z add g n.
Proof. induction n as [|n IH]; intros H; cbn; [reflexivity|]. rewrite IH by (intros; apply H; lia). f_equal. apply H. lia. Qed.

Section Mat.
Context {T : Type} (N : num T) (fresh : nat -> T) (use : bool).
Notation zero := (n_zero N).
Notation add := (n_add N).
Notation mul := (n_mul N).
Context (Ring : use = true -> exists opp, ring_theory (n_zero N) (n_one N) (n_add N) (n_mul N) (n_sub N) opp eq).

Lemma mat_mul x y z (a b : tens T) : matrix z y a -> matrix x z b ->
  exists u, forward_pass fresh mat_shaper (mat_forward N fresh use) [a; b] None = Ok u /\ fst u = [x; y] /\ matrix x y u /\
    forall i j, i < x -> j < y -> entry zero x u i j = sumn zero add (fun q => mul (entry zero z a q j) (entry zero x b i q)) z.
Proof.
  intros Ha Hb. pose proof (matrix_dims _ _ _ Ha) as (A0 & A1 & A2). pose proof (matrix_dims _ _ _ Hb) as (B0 & B1 & B2).
  assert (Es : matmul_shaper (fst a) (fst b) = Ok [x; y]).
  { destruct Ha as (Hz & Hy & La & [Ea|[Ea1 Ea]]); destruct Hb as (Hx & _ & Lb & [Eb|[Eb1 Eb]]); rewrite Ea, Eb; unfold matmul_shaper; cbn;
      try rewrite Nat.eqb_refl; try reflexivity.
    - assert (E : x = 1 /\ z = 1) by nia. destruct E as [-> ->]. reflexivity.
    - assert (E : y = 1 /\ z = 1) by nia. destruct E as [-> ->]. reflexivity.
    - assert (E : y = 1 /\ z = 1 /\ x = 1) by nia. destruct E as (-> & -> & ->). reflexivity. }
  destruct (matmul_general zero add (n_sub N) mul (fun blk i => fresh (blk + i)) use STRASSEN_THRESHOLD (fst a) (fst b) [x; y] (map fresh (seq 0 (n_elems [x; y]))) (snd a) (snd b))
    as (d & k & E1 & E2 & E3).
  - unfold STRASSEN_THRESHOLD. lia.
  - intros Hu. destruct (Ring Hu) as [opp Rth]. intros c' a' b' X Y Z P m. eapply strassen_one_ok; eauto.
  - eapply matrix_def; eauto.
  - eapply matrix_def; eauto.
  - exact Es.
  - now rewrite A2, B2.
  - rewrite (matrix_n _ _ _ Ha). apply Ha.
  - rewrite (matrix_n _ _ _ Hb). apply Hb.
  - now rewrite map_length, seq_length.
  - destruct Ha as (Hz & Hy & La & Sa). destruct Hb as (Hx & _ & Lb & Sb).
    exists ([x; y], d). split; [|split; [reflexivity|split]].
    + apply forward_fresh.
      * cbn. exact Es.
      * cbn. destruct x; [lia|]. destruct y; [lia|]. reflexivity.
      * cbn [map]. unfold mat_forward. cbn [rd nth_error bind]. unfold shape in *. rewrite E1. cbn. reflexivity.
    + repeat split; auto. { cbn [snd]. rewrite E2. cbn. lia. }
    + intros i j Hi Hj. unfold entry. cbn [snd]. specialize (E3 i j []).
      replace (i + x * j) with (offset [x; y] [i; j]) by (cbn; lia).
      erewrite nth_error_nth; [|apply E3; repeat constructor; auto]. rewrite A0. apply sumn_ext. intros q Hq.
      assert (Ea : elem zero (fst a) (snd a) [q; j] = nth (q + z * j) (snd a) zero).
      { unfold elem. f_equal. destruct Sa as [E|[E E']]; [rewrite E; cbn; lia|]. rewrite E'. cbn. nia. }
      assert (Eb : elem zero (fst b) (snd b) [i; q] = nth (i + x * q) (snd b) zero).
      { unfold elem. f_equal. destruct Sb as [E|[E E']]; [rewrite E; cbn; lia|]. rewrite E'. cbn. nia. }
      now rewrite Ea, Eb.
Qed.

Lemma mat_tr c r (a : tens T) : matrix c r a ->
  exists u, forward_pass fresh (shaper1 (transpose_shape (0, 1))) (forward1 (transpose_fwd (0, 1))) [a] None = Ok u /\ matrix r c u /\
    forall i j, i < r -> j < c -> entry zero r u i j = entry zero c a j i.
Proof.
  intros Ha. pose proof Ha as (Hc & Hr & La & [E|[E1 E]]).
  - destruct (C16_transpose_elements_lemma T [c; r] 0 1 (snd a) (map fresh (seq 0 (c * r)))) as (outs & d & E1 & E2 & E3 & E4 & E5 & E6).
    + rewrite <- E. eapply matrix_def; eauto.
    + cbn; lia.
    + cbn; lia.
    + rewrite La. cbn. lia.
    + rewrite map_length, seq_length. cbn. lia.
    + assert (Eo : outs = [r; c]) by (rewrite E2; reflexivity). clear E2. subst outs. change (order_axes (0, 1)) with (0, 1) in *.
      exists ([r; c], d). split; [|split].
      * apply forward_fresh.
        -- cbn [map]. rewrite E. unfold shaper1. cbn [rd nth_error bind]. exact E1.
        -- cbn. destruct r; [lia|]. destruct c; [lia|]. reflexivity.
        -- cbn [map]. rewrite E. unfold forward1. cbn [rd nth_error bind]. replace (n_elems [r; c]) with (c * r) by (cbn; lia). exact E4.
      * repeat split; auto. { cbn [snd]. rewrite E5. cbn. lia. }
      * intros i j Hi Hj. unfold entry. cbn [snd].
        specialize (E6 [i; j] ltac:(repeat constructor; auto)).
        replace (i + r * j) with (offset [r; c] [i; j]) by (cbn; lia).
        apply nth_error_nth. rewrite E6. replace (offset [c; r] (swapc 0 1 [i; j])) with (j + c * i) by (cbn; lia).
        apply nth_error_nth'. rewrite La. nia.
  - assert (c = 1 /\ r = 1) as [-> ->] by nia. destruct a as [sa da]. cbn [fst snd] in *. subst sa. destruct da as [|v [|? ?]]; cbn in La; try lia.
    exists ([1; 1], [v]). split; [reflexivity|]. split; [repeat split; auto|]. intros i j Hi Hj. assert (i = 0) by lia. assert (j = 0) by lia. subst. reflexivity.
Qed.

(** bias: add_axial_b(a, b, 1) *)
Lemma mat_bias c r (f : T -> T -> T) (a b : tens T) : matrix c r a -> vector c b ->
  exists u, forward_pass fresh (binary_axial_shape 1 false) (binary_axial f 1 false) [a; b] None = Ok u /\ fst u = fst a /\ matrix c r u /\
    forall i j, i < c -> j < r -> entry zero c u i j = f (entry zero c a i j) (nth i (snd b) zero).
Proof.
  intros Ha (_ & Eb & Lb). pose proof Ha as (Hc & Hr & La & S). destruct a as [sa da]. destruct b as [sb db]. cbn [fst snd] in *. subst sb.
  pose proof (matrix_def _ _ _ Ha) as Fa. cbn [fst] in Fa. pose proof (matrix_n _ _ _ Ha) as Na. cbn [fst] in Na.
  destruct (Nat.eq_dec c 1) as [->|Hc1].
  - destruct db as [|v [|? ?]]; cbn in Lb; try lia.
    pose proof (C24_axial_scalar_lemma T fresh f false 1 sa [1] v da Fa eq_refl ltac:(lia)) as E. cbn iota in E.
    eexists. split; [exact E|]. split; [reflexivity|]. split; [repeat split; auto; cbn [snd]; now rewrite map_length|].
    intros i j Hi Hj. unfold entry. cbn [snd]. assert (i = 0) by lia. subst i. cbn [nth].
    rewrite (nth_indep _ zero ((fun y => f y v) zero)) by (rewrite map_length; lia). apply (map_nth (fun y => f y v)).
  - destruct S as [S|[S1 S]]; [|nia]. subst sa.
    destruct (C24_axial_elements_lemma T fresh f false 1 [c; r] db da) as (d & E1 & E2 & E3); auto; cbn; try lia.
    change (axis_removed 1 [c; r]) with [c] in E1. cbn iota in E1.
    eexists. split; [exact E1|]. split; [reflexivity|]. split; [repeat split; auto; cbn [snd]; lia|].
    intros i j Hi Hj. destruct (E3 [i; j]) as (xx & yy & H1 & H2 & H3); [repeat constructor; auto|].
    unfold entry. cbn [snd]. replace (i + c * j) with (offset [c; r] [i; j]) by (cbn; lia).
    rewrite (nth_error_nth _ _ _ H3). rewrite (nth_error_nth _ _ _ H2). f_equal. symmetry. apply nth_error_nth.
    rewrite <- H1. f_equal. cbn. lia.
Qed.

(** elementwise operations *)
Lemma mat_un c r (f : T -> T) (a : tens T) : matrix c r a ->
  exists u, forward_pass fresh elementary_shaper (transform_fwd f) [a] None = Ok u /\ matrix c r u /\
    forall i j, i < c -> j < r -> entry zero c u i j = f (entry zero c a i j).
Proof.
  intros Ha. pose proof (matrix_def _ _ _ Ha) as Fa. pose proof (matrix_n _ _ _ Ha) as Na. pose proof Ha as (Hc & Hr & La & S).
  eexists. split; [apply unary_ok; split; [exact Fa|lia]|]. split.
  - repeat split; auto; cbn [fst snd]; [now rewrite map_length|]. unfold ushape. rewrite Na. destruct (Nat.eqb_spec (c * r) 1); [now right|exact S].
  - intros i j Hi Hj. unfold entry. cbn [snd]. rewrite (nth_indep _ zero (f zero)) by (rewrite map_length; nia). apply map_nth.
Qed.
Lemma mat_bin c r (f : T -> T -> T) (a b : tens T) : matrix c r a -> matrix c r b ->
  exists u, forward_pass fresh elementary_shaper (binary_elem f) [a; b] None = Ok u /\ matrix c r u /\
    forall i j, i < c -> j < r -> entry zero c u i j = f (entry zero c a i j) (entry zero c b i j).
Proof.
  intros Ha Hb. destruct a as [sa da]. destruct b as [sb db].
  pose proof (matrix_def _ _ _ Ha) as Fa. pose proof (matrix_n _ _ _ Ha) as Na. pose proof Ha as (Hc & Hr & La & Sa).
  pose proof (matrix_def _ _ _ Hb) as Fb. pose proof (matrix_n _ _ _ Hb) as Nb. pose proof Hb as (_ & _ & Lb & Sb). cbn [fst snd] in *.
  destruct (C23_binary_pointwise_lemma T fresh f sa sb da db Fa Fb) as (d & E1 & E2 & E3 & E4); [congruence|congruence| |].
  { destruct Sa as [Sa|[S1 _]]; [|left; congruence]. destruct Sb as [Sb|[S1 _]]; [|right; left; congruence]. right. right. left. congruence. }
  cbn zeta in *. set (outs := if (length db =? 1)%nat then if (length da =? 1)%nat then [1%nat] else sa else sb) in *.
  exists (outs, d). split; [apply E1; now left|]. split.
  - repeat split; auto; cbn [fst snd]; [rewrite E2, E3; lia|]. unfold outs. rewrite La, Lb. destruct (Nat.eqb_spec (c * r) 1) as [H|H]; [now right|].
    destruct Sb as [->|[S1 _]]; [now left|congruence].
  - intros i j Hi Hj. assert (Hk : i + c * j < c * r) by nia. destruct (E4 (i + c * j)) as (x & y & H1 & H2 & H3); [lia|].
    unfold entry. cbn [snd]. rewrite (nth_error_nth _ _ _ H3). f_equal; symmetry; apply nth_error_nth.
    + rewrite <- H1. f_equal. destruct (Nat.eqb_spec (length da) 1); lia.
    + rewrite <- H2. f_equal. destruct (Nat.eqb_spec (length db) 1); lia.
Qed.
End Mat.
