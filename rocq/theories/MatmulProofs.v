(** Proofs about cubic_mul, strassen and the matmul forward pass. *)
From Coq Require Import Ring Ring_theory.
From Verif Require Import Common ShapeModel ShapeSpec ShapeProofs TransformProofs MemModel MemProofs MatmulModel MatmulSpec.

Lemma idx_lt x y X Y : x < X -> y < Y -> x + X * y < X * Y.
Proof. nia. Qed.

Lemma idx_inj x y x' y' X : x < X -> x' < X -> x + X * y = x' + X * y' -> x = x' /\ y = y'.
Proof. intros H1 H2 E. assert (y = y') by nia. subst. lia. Qed.

(** result of the padding loop: at least the input, and a small number times a power of two *)
Lemma min_pad_loop_ok thr : 0 < thr -> forall fuel n c, n <= fuel + thr ->
  exists k e, min_pad_loop thr fuel n c = k * 2 ^ (c + e) /\ k <= thr /\ n <= k * 2 ^ e.
Proof.
  intros Ht. induction fuel as [|f IH]; intros n c Hf; cbn [min_pad_loop].
  - exists n, 0. rewrite Nat.add_0_r. cbn. lia.
  - destruct (Nat.ltb_spec thr n).
    + assert (Hh : 2 * ((n + 1) / 2) <= n + 1 < 2 * ((n + 1) / 2) + 2).
      { pose proof (Nat.div_mod (n + 1) 2 ltac:(lia)). pose proof (Nat.mod_upper_bound (n + 1) 2 ltac:(lia)). lia. }
      destruct (IH ((n + 1) / 2) (c + 1)) as [k [e [E [Hk Hle]]]]; [lia|].
      exists k, (1 + e). rewrite E. split; [f_equal; f_equal; lia|]. split; auto.
      rewrite Nat.pow_add_r. cbn [Nat.pow]. nia.
    + exists n, 0. rewrite Nat.add_0_r. cbn. lia.
Qed.

(** sizes that halve down to the threshold without remainder *)
Definition padded (thr n : nat) : Prop := exists k c, k <= thr /\ n = k * 2 ^ c.

Lemma min_pad_ok thr n : 0 < thr -> n <= min_pad thr n /\ padded thr (min_pad thr n) /\ (n <= thr -> min_pad thr n = n).
Proof.
  intros Ht. unfold min_pad. destruct (min_pad_loop_ok thr Ht n n 0) as [k [e [E [Hk Hle]]]]; [lia|].
  split; [rewrite E; exact Hle|]. split; [exists k, e; auto|].
  intros Hn. destruct n; cbn [min_pad_loop]; [lia|].
  destruct (Nat.ltb_spec thr (S n)); [lia|]. cbn [Nat.pow]. lia.
Qed.

Lemma padded_half thr n : padded thr n -> thr < n -> exists q, n = 2 * q /\ n / 2 = q /\ padded thr q.
Proof.
  intros [k [c [Hk E]]] Hn. destruct c as [|c]; [cbn in E; lia|]. exists (k * 2 ^ c). split; [|split].
  - rewrite E. cbn. lia.
  - rewrite E. replace (k * 2 ^ S c) with (k * 2 ^ c * 2) by (cbn; lia). apply Nat.div_mul. lia.
  - now exists k, c.
Qed.

Section R.
Context {T : Type} (zero one : T) (add mul sub : T -> T -> T) (opp : T -> T).
Notation get := (get zero).
Notation sumn := (sumn zero add).

Lemma sumn_ext f g n : (forall i, i < n -> f i = g i) -> sumn f n = sumn g n.
Proof. induction n as [|n IH]; intros H; cbn; auto. rewrite IH, H by (auto; intros; apply H; lia). reflexivity. Qed.

Lemma cubic_ok c a b X Y Z m :
  rvalid m c (X * Y) -> rvalid m a (Z * Y) -> rvalid m b (X * Z) ->
  apart c (X * Y) a (Z * Y) -> apart c (X * Y) b (X * Z) ->
  exists m', cubic_mul zero add mul c a b X Y Z Z 1 1 X m = Ok m' /\ lay m' = lay m /\
    (forall x y, x < X -> y < Y -> get m' (padd c (x + X * y)) =
       sumn (fun z => mul (get m (padd a (z + Z * y))) (get m (padd b (x + X * z)))) Z) /\
    (forall p, ~ inr c (X * Y) p -> get m' p = get m p).
Proof.
  intros Vc Va Vb Da Db. unfold cubic_mul.
  set (val := fun x y => sumn (fun z => mul (get m (padd a (z + Z * y))) (get m (padd b (x + X * z)))) Z).
  destruct (for2_scatter zero Y X (fun y x m =>
      m <- wrp m (padd c (x + y * X)) zero ;;
      for_ Z (fun z m =>
        let aidx := Z * y + 1 * z in
        let bidx := 1 * x + X * z in
        cv <- rdp m (padd c (x + y * X)) ;;
        av <- rdp m (padd a aidx) ;;
        bv <- rdp m (padd b bidx) ;;
        wrp m (padd c (x + y * X)) (add cv (mul av bv))) m)
      (fun y x => [(padd c (x + X * y), val x y)]) m) as [m' [E [L [H1 H2]]]].
  - intros y x m1 Hy Hx HL Hg.
    pose proof (idx_lt x y X Y Hx Hy) as Ic.
    assert (Vp : valid m1 (padd c (x + X * y))) by (apply (valid_lay m); auto; now apply (rvalid_valid m c (X * Y))).
    rewrite (Nat.mul_comm y X). rewrite wrp_ok by auto. cbn [bind].
    set (p := padd c (x + X * y)) in *.
    destruct (for_inv (fun k mm => mm = put m1 p (sumn (fun z => mul (get m (padd a (z + Z * y))) (get m (padd b (x + X * z)))) k))
      (fun z m =>
        let aidx := Z * y + 1 * z in
        let bidx := 1 * x + X * z in
        cv <- rdp m p ;;
        av <- rdp m (padd a aidx) ;;
        bv <- rdp m (padd b bidx) ;;
        wrp m p (add cv (mul av bv))) Z (put m1 p zero)) as [s [Es Ps]].
    + reflexivity.
    + intros z s Hz ->. eexists. split; [|reflexivity]. cbv zeta.
      replace (Z * y + 1 * z) with (z + Z * y) by lia. replace (1 * x + X * z) with (x + X * z) by lia.
      pose proof (idx_lt z y Z Y Hz Hy) as Ia. pose proof (idx_lt x z X Z Hx Hz) as Ib.
      assert (Ra : forall q, valid m q -> ~ inr c (X * Y) q -> forall v, rdp (put m1 p v) q = Ok (get m q)).
      { intros q Vq Nq v. rewrite (rdp_ok zero) by (apply (valid_lay m); auto; now rewrite lay_put). f_equal.
        rewrite get_put_neq.
        - apply Hg. intros y' x' Hy' Hx' _ [C|[]]. apply Nq. cbn in C. subst q. eexists. split; [|reflexivity].
          now apply idx_lt.
        - intros C. apply Nq. subst q. unfold p. eexists. split; [|reflexivity]. lia. }
      rewrite (rdp_ok zero) by (apply (valid_lay m1); [now rewrite lay_put|auto]). cbn [bind]. rewrite get_put_eq by auto.
      rewrite Ra; [|now apply (rvalid_valid m a (Z * Y))|].
      2:{ intros Hc. revert Hc. apply (inr_apart a (Z * Y)); [now apply apart_sym|]. now apply inr_padd. }
      cbn [bind]. rewrite Ra; [|now apply (rvalid_valid m b (X * Z))|].
      2:{ intros Hc. revert Hc. apply (inr_apart b (X * Z)); [now apply apart_sym|]. now apply inr_padd. }
      cbn [bind]. rewrite wrp_ok by (apply (valid_lay m1); [now rewrite lay_put|auto]). rewrite put_put. reflexivity.
    + etransitivity; [exact Es|]. now rewrite Ps.
  - intros y x p v Hy Hx [C|[]]. injection C as <- <-. apply (rvalid_valid m c (X * Y)); auto. now apply idx_lt.
  - intros y x y' x' p v w Hy Hx Hy' Hx' [C|[]] [C'|[]]. injection C as <- <-. injection C' as C1 <-.
    destruct (idx_inj x' y' x y X) as [-> ->]; auto. lia.
  - exists m'. split; [exact E|]. split; auto. split.
    + intros x y Hx Hy. apply (H1 y x); auto. now left.
    + intros p Hp. apply H2. intros y x Hy Hx [C|[]]. apply Hp. cbn in C. subst p. eexists. split; [|reflexivity].
      now apply idx_lt.
Qed.


(** ---- Strassen ---- *)

Definition mat (m : mem T) (p : ptr) (n : nat) (f : nat -> nat -> T) : Prop :=
  forall x y, x < n -> y < n -> get m (padd p (x + n * y)) = f x y.

Lemma valid_put (m : mem T) p v q : valid m q -> valid (put m p v) q.
Proof. apply valid_lay. symmetry. apply lay_put. Qed.

Lemma cpy_ok dst x m : valid m dst -> valid m x -> cpy dst x m = Ok (put m dst (get m x)).
Proof. intros H1 H2. unfold cpy. rewrite (rdp_ok zero) by auto. cbn [bind]. now apply wrp_ok. Qed.
Lemma bin_ok op dst x y m : valid m dst -> valid m x -> valid m y -> bin op dst x y m = Ok (put m dst (op (get m x) (get m y))).
Proof. intros H1 H2 H3. unfold bin. rewrite !(rdp_ok zero) by auto. cbn [bind]. now apply wrp_ok. Qed.

Lemma quad_bounds q x y : x < q -> y < q ->
  x + q * y < q * q /\ x + 2 * q * y < 4 * (q * q) /\ x + q + 2 * q * y < 4 * (q * q) /\
  x + 2 * q * (y + q) < 4 * (q * q) /\ x + q + 2 * q * (y + q) < 4 * (q * q).
Proof. nia. Qed.

Ltac vld := repeat apply valid_put; assumption.
Ltac neq := try match goal with |- ?x = ?y -> False => change (x <> y) end; first
  [ match goal with H : apart ?p _ ?q _ |- padd ?p _ <> padd ?q _ => apply H; lia end
  | match goal with H : apart ?p _ ?q _ |- padd ?q _ <> padd ?p _ => apply not_eq_sym; apply H; lia end
  | let C := fresh in intros C; apply padd_inj in C; lia ].
Ltac exec := repeat (first [rewrite cpy_ok by vld | rewrite bin_ok by vld | rewrite wrp_ok by vld | rewrite (rdp_ok zero) by vld]; cbn [bind]).
Ltac unput := repeat rewrite get_put_neq by neq.
Ltac cases H := repeat match type of H with _ \/ _ => destruct H as [H|H] | False => destruct H end.
(* two writes of one cell: contradiction, or the same iteration *)
Ltac same Hinj C := first [exfalso; revert C; neq | apply padd_inj in C; destruct Hinj as [-> ->]; [lia|reflexivity]].

Lemma iter1_ok c a temp temp2 q m :
  let Q := q * q in
  rvalid m c (4 * Q) -> rvalid m a (4 * Q) -> rvalid m temp Q -> rvalid m temp2 Q ->
  apart c (4 * Q) a (4 * Q) -> apart c (4 * Q) temp Q -> apart c (4 * Q) temp2 Q ->
  apart a (4 * Q) temp Q -> apart a (4 * Q) temp2 Q -> apart temp Q temp2 Q ->
  let A11 x y := get m (padd a (x + 2 * q * y)) in
  let A12 x y := get m (padd a (x + q + 2 * q * y)) in
  let A21 x y := get m (padd a (x + 2 * q * (y + q))) in
  let A22 x y := get m (padd a (x + q + 2 * q * (y + q))) in
  exists m', strassen_iter1 add sub c a temp temp2 (2 * q) q Q m = Ok m' /\ lay m' = lay m /\
    mat m' c q A11 /\ mat m' (padd c Q) q (fun x y => add (A21 x y) (A22 x y)) /\
    mat m' (padd c (2 * Q)) q A22 /\ mat m' (padd c (3 * Q)) q (fun x y => add (A11 x y) (A12 x y)) /\
    mat m' temp q (fun x y => sub (A21 x y) (A11 x y)) /\ mat m' temp2 q (fun x y => sub (A12 x y) (A22 x y)) /\
    (forall p, ~ inr c (4 * Q) p -> ~ inr temp Q p -> ~ inr temp2 Q p -> get m' p = get m p).
Proof.
  intros Q Vc Va Vt Vt2 D1 D2 D3 D4 D5 D6 A11 A12 A21 A22. unfold strassen_iter1.
  set (W := fun x y => let i := x + q * y in
    [(padd c i, A11 x y); (padd c (Q + i), add (A21 x y) (A22 x y)); (padd c (2 * Q + i), A22 x y);
     (padd c (3 * Q + i), add (A11 x y) (A12 x y)); (padd temp i, sub (A21 x y) (A11 x y));
     (padd temp2 i, sub (A12 x y) (A22 x y))]).
  assert (QB : forall x y, x < q -> y < q -> x + q * y < Q /\ x + 2 * q * y < 4 * Q /\ x + q + 2 * q * y < 4 * Q /\
    x + 2 * q * (y + q) < 4 * Q /\ x + q + 2 * q * (y + q) < 4 * Q) by (intros; now apply quad_bounds).
  clearbody Q.
  match goal with |- context [for_ q (fun x m0 => for_ q (fun y m1 => @?body x m0 y m1) m0) m] =>
    destruct (for2_scatter zero q q (fun x y m1 => body x m y m1) W m) as [m' [E [L [H1 H2]]]] end.
  - intros x y m1 Hx Hy HL Hg. cbv zeta. unfold W. cbv zeta.
    destruct (QB x y Hx Hy) as [B [B11 [B12 [B21 B22]]]].
    assert (Hr : forall k, k < 4 * Q -> get m1 (padd a k) = get m (padd a k) /\ valid m1 (padd a k)).
    { intros k Hk. split.
      - apply Hg. intros x' y' Hx' Hy' _. destruct (QB x' y' Hx' Hy') as [B' _]. unfold W. cbn [map fst].
        cbn [In]. intros Hin. cases Hin; revert Hin; neq.
      - apply (valid_lay m); auto. }
    destruct (Hr _ B11) as [G11 V11], (Hr _ B12) as [G12 V12], (Hr _ B21) as [G21 V21], (Hr _ B22) as [G22 V22].
    assert (Vc' : forall k, k < 4 * Q -> valid m1 (padd c k)) by (intros k Hk; apply (valid_lay m); auto).
    pose proof (Vc' (x + q * y) ltac:(lia)). pose proof (Vc' (Q + (x + q * y)) ltac:(lia)).
    pose proof (Vc' (2 * Q + (x + q * y)) ltac:(lia)). pose proof (Vc' (3 * Q + (x + q * y)) ltac:(lia)).
    assert (valid m1 (padd temp (x + q * y))) by (apply (valid_lay m); auto).
    assert (valid m1 (padd temp2 (x + q * y))) by (apply (valid_lay m); auto).
    exec. unput. unfold A11, A12, A21, A22. rewrite G11, G12, G21, G22. reflexivity.
  - intros x y p v Hx Hy Hin. destruct (QB x y Hx Hy) as [B _]. unfold W in Hin. cbn [In] in Hin.
    cases Hin; apply pair_equal_spec in Hin; destruct Hin; subst p;
      first [apply Vc; lia | apply Vt; lia | apply Vt2; lia].
  - intros x y x' y' p v w Hx Hy Hx' Hy' Hin Hin'. destruct (QB x y Hx Hy) as [B _], (QB x' y' Hx' Hy') as [B' _].
    unfold W in Hin, Hin'. cbn [In] in Hin, Hin'.
    assert (Hinj : x + q * y = x' + q * y' -> x = x' /\ y = y') by (intros; now apply idx_inj with (X := q)).
    clear W.
    cases Hin; cases Hin'; apply pair_equal_spec in Hin; destruct Hin; apply pair_equal_spec in Hin'; destruct Hin' as [C Hw];
    subst p v w; same Hinj C.
  - exists m'. split; [exact E|]. split; auto.
    repeat match goal with |- mat _ _ _ _ /\ _ => split; [intros x y Hx Hy; apply (H1 x y); auto; unfold W; cbn [In]; rewrite ?padd_padd; tauto|] end.
    intros p Hp Hp2 Hp3. apply H2. intros x y Hx Hy Hin. destruct (QB x y Hx Hy) as [B _]. unfold W in Hin. cbn [map fst In] in Hin.
    cases Hin; subst p; first [apply Hp; apply inr_padd; lia | apply Hp2; apply inr_padd; lia | apply Hp3; apply inr_padd; lia].
Qed.

Lemma iter2_ok a b q m :
  let Q := q * q in
  rvalid m a (4 * Q) -> rvalid m b (4 * Q) -> apart a (4 * Q) b (4 * Q) ->
  let B11 x y := get m (padd b (x + 2 * q * y)) in
  let B12 x y := get m (padd b (x + q + 2 * q * y)) in
  let B21 x y := get m (padd b (x + 2 * q * (y + q))) in
  let B22 x y := get m (padd b (x + q + 2 * q * (y + q))) in
  exists m', strassen_iter2 a b (2 * q) q Q m = Ok m' /\ lay m' = lay m /\
    mat m' a q B11 /\ mat m' (padd a Q) q B12 /\ mat m' (padd a (2 * Q)) q B21 /\ mat m' (padd a (3 * Q)) q B22 /\
    (forall p, ~ inr a (4 * Q) p -> get m' p = get m p).
Proof.
  intros Q Va Vb D1 B11 B12 B21 B22. unfold strassen_iter2.
  set (W := fun x y => let i := x + q * y in
    [(padd a i, B11 x y); (padd a (Q + i), B12 x y); (padd a (2 * Q + i), B21 x y); (padd a (3 * Q + i), B22 x y)]).
  assert (QB : forall x y, x < q -> y < q -> x + q * y < Q /\ x + 2 * q * y < 4 * Q /\ x + q + 2 * q * y < 4 * Q /\
    x + 2 * q * (y + q) < 4 * Q /\ x + q + 2 * q * (y + q) < 4 * Q) by (intros; now apply quad_bounds).
  clearbody Q.
  match goal with |- context [for_ q (fun x m0 => for_ q (fun y m1 => @?body x m0 y m1) m0) m] =>
    destruct (for2_scatter zero q q (fun x y m1 => body x m y m1) W m) as [m' [E [L [H1 H2]]]] end.
  - intros x y m1 Hx Hy HL Hg. cbv zeta. unfold W. cbv zeta.
    destruct (QB x y Hx Hy) as [B [L11 [L12 [L21 L22]]]].
    assert (Hr : forall k, k < 4 * Q -> get m1 (padd b k) = get m (padd b k) /\ valid m1 (padd b k)).
    { intros k Hk. split.
      - apply Hg. intros x' y' Hx' Hy' _. destruct (QB x' y' Hx' Hy') as [B' _]. unfold W. cbn [map fst].
        cbn [In]. intros Hin. cases Hin; revert Hin; neq.
      - apply (valid_lay m); auto. }
    destruct (Hr _ L11) as [G11 V11], (Hr _ L12) as [G12 V12], (Hr _ L21) as [G21 V21], (Hr _ L22) as [G22 V22].
    assert (Vc' : forall k, k < 4 * Q -> valid m1 (padd a k)) by (intros k Hk; apply (valid_lay m); auto).
    pose proof (Vc' (x + q * y) ltac:(lia)). pose proof (Vc' (Q + (x + q * y)) ltac:(lia)).
    pose proof (Vc' (2 * Q + (x + q * y)) ltac:(lia)). pose proof (Vc' (3 * Q + (x + q * y)) ltac:(lia)).
    exec. unput. unfold B11, B12, B21, B22. rewrite G11, G12, G21, G22. reflexivity.
  - intros x y p v Hx Hy Hin. destruct (QB x y Hx Hy) as [B _]. unfold W in Hin. cbn [In] in Hin.
    cases Hin; apply pair_equal_spec in Hin; destruct Hin; subst p; apply Va; lia.
  - intros x y x' y' p v w Hx Hy Hx' Hy' Hin Hin'. destruct (QB x y Hx Hy) as [B _], (QB x' y' Hx' Hy') as [B' _].
    unfold W in Hin, Hin'. cbn [In] in Hin, Hin'.
    assert (Hinj : x + q * y = x' + q * y' -> x = x' /\ y = y') by (intros; now apply idx_inj with (X := q)).
    clear W.
    cases Hin; cases Hin'; apply pair_equal_spec in Hin; destruct Hin; apply pair_equal_spec in Hin'; destruct Hin' as [C Hw];
    subst p v w; same Hinj C.
  - exists m'. split; [exact E|]. split; auto.
    repeat match goal with |- mat _ _ _ _ /\ _ => split; [intros x y Hx Hy; apply (H1 x y); auto; unfold W; cbn [In]; rewrite ?padd_padd; tauto|] end.
    intros p Hp. apply H2. intros x y Hx Hy Hin. destruct (QB x y Hx Hy) as [B _]. unfold W in Hin. cbn [map fst In] in Hin.
    cases Hin; subst p; apply Hp; apply inr_padd; lia.
Qed.

Lemma iter3_ok c a b q m :
  let Q := q * q in
  rvalid m c (4 * Q) -> rvalid m a (4 * Q) -> rvalid m b (4 * Q) ->
  apart c (4 * Q) a (4 * Q) -> apart c (4 * Q) b (4 * Q) -> apart a (4 * Q) b (4 * Q) ->
  let cell p k x y := get m (padd p (k + (x + q * y))) in
  exists m', strassen_iter3 add sub c a b Q m = Ok m' /\ lay m' = lay m /\
    mat m' b q (fun x y => add (cell c 0 x y) (cell c (2 * Q) x y)) /\
    mat m' (padd b Q) q (fun x y => add (cell a 0 x y) (cell a (3 * Q) x y)) /\
    mat m' (padd b (2 * Q)) q (fun x y => add (cell a 0 x y) (cell a Q x y)) /\
    mat m' (padd b (3 * Q)) q (fun x y => add (cell a (2 * Q) x y) (cell a (3 * Q) x y)) /\
    mat m' (padd a Q) q (fun x y => sub (cell a Q x y) (cell a (3 * Q) x y)) /\
    mat m' (padd a (2 * Q)) q (fun x y => sub (cell a (2 * Q) x y) (cell a 0 x y)) /\
    (forall p, ~ inr b (4 * Q) p -> ~ inr (padd a Q) Q p -> ~ inr (padd a (2 * Q)) Q p -> get m' p = get m p).
Proof.
  intros Q Vc Va Vb D1 D2 D3 cell. unfold strassen_iter3.
  set (g := fun p k => get m (padd p k)).
  set (W := fun i =>
    [(padd b i, add (g c i) (g c (2 * Q + i))); (padd b (Q + i), add (g a i) (g a (3 * Q + i)));
     (padd b (2 * Q + i), add (g a i) (g a (Q + i))); (padd b (3 * Q + i), add (g a (2 * Q + i)) (g a (3 * Q + i)));
     (padd a (Q + i), sub (g a (Q + i)) (g a (3 * Q + i))); (padd a (2 * Q + i), sub (g a (2 * Q + i)) (g a i))]).
  assert (QB : forall x y, x < q -> y < q -> x + q * y < Q) by (intros; now apply idx_lt).
  clearbody Q.
  match goal with |- context [for_ Q ?body m] =>
    destruct (for_scatter zero Q body W m) as [m' [E [L [H1 H2]]]] end.
  - intros i m1 Hi HL Hg. unfold W.
    assert (Hra : forall k, k = i \/ k = Q + i \/ k = 2 * Q + i \/ k = 3 * Q + i -> get m1 (padd a k) = get m (padd a k) /\ valid m1 (padd a k)).
    { intros k Hk. split.
      - apply Hg. intros j Hj. unfold W. cbn [map fst].
        cbn [In]. intros Hin. cases Hin; revert Hin; neq.
      - apply (valid_lay m); auto. apply Va. lia. }
    assert (Hrc : forall k, k < 4 * Q -> get m1 (padd c k) = get m (padd c k) /\ valid m1 (padd c k)).
    { intros k Hk. split.
      - apply Hg. intros j Hj. unfold W. cbn [map fst].
        cbn [In]. intros Hin. cases Hin; revert Hin; neq.
      - apply (valid_lay m); auto. }
    destruct (Hra i) as [G0 V0]; [tauto|]. destruct (Hra (Q + i)) as [G1 V1]; [tauto|].
    destruct (Hra (2 * Q + i)) as [G2 V2]; [tauto|]. destruct (Hra (3 * Q + i)) as [G3 V3]; [tauto|].
    destruct (Hrc i) as [K0 U0]; [lia|]. destruct (Hrc (2 * Q + i)) as [K2 U2]; [lia|].
    assert (Vb' : forall k, k < 4 * Q -> valid m1 (padd b k)) by (intros k Hk; apply (valid_lay m); auto).
    pose proof (Vb' i ltac:(lia)). pose proof (Vb' (Q + i) ltac:(lia)).
    pose proof (Vb' (2 * Q + i) ltac:(lia)). pose proof (Vb' (3 * Q + i) ltac:(lia)).
    exec. unput. unfold g. rewrite G0, G1, G2, G3, K0, K2. reflexivity.
  - intros i p v Hi Hin. unfold W in Hin. cbn [In] in Hin.
    cases Hin; apply pair_equal_spec in Hin; destruct Hin; subst p; first [apply Vb; lia|apply Va; lia].
  - intros i j p v w Hi Hj Hin Hin'.
    unfold W in Hin, Hin'. cbn [In] in Hin, Hin'.
    clear W.
    cases Hin; cases Hin'; apply pair_equal_spec in Hin; destruct Hin; apply pair_equal_spec in Hin'; destruct Hin' as [C Hw];
    subst p v w; first [exfalso; revert C; neq | apply padd_inj in C; assert (j = i) by lia; subst j; reflexivity].
  - exists m'. split; [exact E|]. split; auto. unfold cell.
    repeat match goal with |- mat _ _ _ _ /\ _ => split; [intros x y Hx Hy; apply (H1 (x + q * y)); [now apply QB|]; unfold W, g; cbn [In]; rewrite ?padd_padd; cbn [Nat.add]; tauto|] end.
    intros p Hp Hp1 Hp2. apply H2. intros i Hi Hin. unfold W in Hin. cbn [map fst In] in Hin.
    cases Hin; subst p; first [apply Hp; apply inr_padd; lia | apply Hp1; rewrite <- padd_padd; apply inr_padd; lia| apply Hp2; rewrite <- padd_padd; apply inr_padd; lia].
Qed.

Lemma iter4_ok c b temp temp2 temp3 q m :
  let Q := q * q in
  rvalid m c (4 * Q) -> rvalid m b (4 * Q) -> rvalid m temp Q -> rvalid m temp2 Q -> rvalid m temp3 Q ->
  apart c (4 * Q) b (4 * Q) -> apart c (4 * Q) temp Q -> apart c (4 * Q) temp2 Q -> apart c (4 * Q) temp3 Q ->
  forall M1 M2 M3 M4 M5 M6 M7,
  mat m temp2 q M1 -> mat m b q M2 -> mat m (padd b Q) q M3 -> mat m (padd b (2 * Q)) q M4 ->
  mat m (padd b (3 * Q)) q M5 -> mat m temp3 q M6 -> mat m temp q M7 ->
  exists m', strassen_iter4 add sub c b temp temp2 temp3 (2 * q) q Q m = Ok m' /\ lay m' = lay m /\
    (forall x y, x < q -> y < q ->
      get m' (padd c (x + 2 * q * y)) = add (sub (add (M1 x y) (M4 x y)) (M5 x y)) (M7 x y) /\
      get m' (padd c (x + q + 2 * q * y)) = add (M3 x y) (M5 x y) /\
      get m' (padd c (x + 2 * q * (y + q))) = add (M2 x y) (M4 x y) /\
      get m' (padd c (x + q + 2 * q * (y + q))) = add (add (sub (M1 x y) (M2 x y)) (M3 x y)) (M6 x y)) /\
    (forall p, ~ inr c (4 * Q) p -> get m' p = get m p).
Proof.
  intros Q Vc Vb Vt Vt2 Vt3 D1 D2 D3 D4 M1 M2 M3 M4 M5 M6 M7 X1 X2 X3 X4 X5 X6 X7. unfold strassen_iter4.
  set (W := fun x y => 
    [(padd c (x + 2 * q * y), add (sub (add (M1 x y) (M4 x y)) (M5 x y)) (M7 x y));
     (padd c (x + q + 2 * q * y), add (M3 x y) (M5 x y));
     (padd c (x + 2 * q * (y + q)), add (M2 x y) (M4 x y));
     (padd c (x + q + 2 * q * (y + q)), add (add (sub (M1 x y) (M2 x y)) (M3 x y)) (M6 x y))]).
  assert (QB : forall x y, x < q -> y < q -> x + q * y < Q /\ x + 2 * q * y < 4 * Q /\ x + q + 2 * q * y < 4 * Q /\
    x + 2 * q * (y + q) < 4 * Q /\ x + q + 2 * q * (y + q) < 4 * Q) by (intros; now apply quad_bounds).
  clearbody Q.
  assert (DI : forall x y x' y', x < q -> y < q -> x' < q -> y' < q ->
    x + 2 * q * y <> x' + q + 2 * q * y' /\ x + 2 * q * y <> x' + 2 * q * (y' + q) /\ x + 2 * q * y <> x' + q + 2 * q * (y' + q) /\
    x + q + 2 * q * y <> x' + 2 * q * (y' + q) /\ x + q + 2 * q * y <> x' + q + 2 * q * (y' + q) /\
    x + 2 * q * (y + q) <> x' + q + 2 * q * (y' + q) /\
    (x + 2 * q * y = x' + 2 * q * y' -> x = x' /\ y = y')).
  { clear. intros x y x' y' Hx Hy Hx' Hy'.
    repeat split; try (intros C; first [apply (idx_inj x y (x' + q) y' (2 * q)) in C; [lia|lia|lia] 
      | apply (idx_inj x y x' (y' + q) (2 * q)) in C; [lia|lia|lia]
      | apply (idx_inj x y (x' + q) (y' + q) (2 * q)) in C; [lia|lia|lia]
      | apply (idx_inj (x + q) y x' (y' + q) (2 * q)) in C; [lia|lia|lia]
      | apply (idx_inj (x + q) y (x' + q) (y' + q) (2 * q)) in C; [lia|lia|lia]
      | apply (idx_inj x (y + q) (x' + q) (y' + q) (2 * q)) in C; [lia|lia|lia]]);
    apply (idx_inj x y x' y' (2 * q)) in H; lia. }
  match goal with |- context [for_ q (fun x m0 => for_ q (fun y m1 => @?body x m0 y m1) m0) m] =>
    destruct (for2_scatter zero q q (fun x y m1 => body x m y m1) W m) as [m' [E [L [H1 H2]]]] end.
  - intros x y m1 Hx Hy HL Hg. cbv zeta. unfold W.
    destruct (QB x y Hx Hy) as [B [L11 [L12 [L21 L22]]]].
    assert (Hrb : forall k, k < 4 * Q -> get m1 (padd b k) = get m (padd b k) /\ valid m1 (padd b k)).
    { intros k Hk. split.
      - apply Hg. intros x' y' Hx' Hy' _. destruct (QB x' y' Hx' Hy') as [B' [? [? [? ?]]]]. unfold W. cbn [map fst].
        cbn [In]. intros Hin. cases Hin; revert Hin; neq.
      - apply (valid_lay m); auto. }
    assert (Hrt : forall t k, k < Q -> apart c (4 * Q) t Q -> rvalid m t Q -> get m1 (padd t k) = get m (padd t k) /\ valid m1 (padd t k)).
    { intros t k Hk Ht Hv. split.
      - apply Hg. intros x' y' Hx' Hy' _. destruct (QB x' y' Hx' Hy') as [B' [? [? [? ?]]]]. unfold W. cbn [map fst].
        cbn [In]. intros Hin. cases Hin; revert Hin; neq.
      - apply (valid_lay m); auto. }
    assert (Vc' : forall k, k < 4 * Q -> valid m1 (padd c k)) by (intros k Hk; apply (valid_lay m); auto).
    pose proof (Vc' _ L11). pose proof (Vc' _ L12). pose proof (Vc' _ L21). pose proof (Vc' _ L22).
    destruct (Hrb (x + q * y)) as [G0 V0]; [lia|]. destruct (Hrb (Q + (x + q * y))) as [G1 V1]; [lia|].
    destruct (Hrb (2 * Q + (x + q * y))) as [G2 V2]; [lia|]. destruct (Hrb (3 * Q + (x + q * y))) as [G3 V3]; [lia|].
    destruct (Hrt temp (x + q * y) B D2 Vt) as [K1 U1]. destruct (Hrt temp2 (x + q * y) B D3 Vt2) as [K2 U2].
    destruct (Hrt temp3 (x + q * y) B D4 Vt3) as [K3 U3].
    exec. unput. rewrite G0, G1, G2, G3, K1, K2, K3.
    rewrite (X1 x y), (X2 x y), (X6 x y), (X7 x y) by auto.
    pose proof (X3 x y Hx Hy) as Y3. pose proof (X4 x y Hx Hy) as Y4. pose proof (X5 x y Hx Hy) as Y5.
    rewrite padd_padd in Y3, Y4, Y5. rewrite Y3, Y4, Y5. reflexivity.
  - intros x y p v Hx Hy Hin. destruct (QB x y Hx Hy) as [B [? [? [? ?]]]]. unfold W in Hin. cbn [In] in Hin.
    cases Hin; apply pair_equal_spec in Hin; destruct Hin; subst p; apply Vc; lia.
  - intros x y x' y' p v w Hx Hy Hx' Hy' Hin Hin'.
    unfold W in Hin, Hin'. cbn [In] in Hin, Hin'.
    pose proof (DI x y x' y' Hx Hy Hx' Hy') as I1. pose proof (DI x' y' x y Hx' Hy' Hx Hy) as I2.
    destruct I1 as [? [? [? [? [? [? Hinj]]]]]]. destruct I2 as [? [? [? [? [? [? _]]]]]].
    clear W.
    cases Hin; cases Hin'; apply pair_equal_spec in Hin; destruct Hin; apply pair_equal_spec in Hin'; destruct Hin' as [C Hw];
    subst p v w; apply padd_inj in C; first [exfalso; lia | destruct Hinj as [-> ->]; [lia|reflexivity]].
  - exists m'. split; [exact E|]. split; auto. split.
    + intros x y Hx Hy. repeat split; apply (H1 x y); auto; unfold W; cbn [In]; tauto.
    + intros p Hp. apply H2. intros x y Hx Hy Hin. destruct (QB x y Hx Hy) as [B [? [? [? ?]]]]. unfold W in Hin. cbn [map fst In] in Hin.
      cases Hin; subst p; apply Hp; apply inr_padd; lia.
Qed.

(** product of two square matrices given by their entries (column, row) *)
Definition mmul (n : nat) (fa fb : nat -> nat -> T) (x y : nat) : T := sumn (fun z => mul (fa z y) (fb x z)) n.

(** the memory only gained freed buffers *)
Definition ext (m m' : mem T) : Prop := exists k, lay m' = lay m ++ repeat 0 k.

Lemma ext_refl_lay m m' : lay m' = lay m -> ext m m'.
Proof. intros E. exists 0. cbn. now rewrite app_nil_r. Qed.
Lemma ext_trans m1 m2 m3 : ext m1 m2 -> ext m2 m3 -> ext m1 m3.
Proof. intros [k E] [k' E']. exists (k + k'). rewrite E', E, repeat_app. now rewrite app_assoc. Qed.
Lemma valid_ext m m' p : ext m m' -> valid m p -> valid m' p.
Proof.
  intros [k E] H. pose proof (valid_block m p H) as Hb. unfold valid in *. rewrite E, app_nth1; auto.
  unfold lay. now rewrite map_length.
Qed.
Lemma rvalid_ext m m' p n : ext m m' -> rvalid m p n -> rvalid m' p n.
Proof. intros E H i Hi. apply (valid_ext m); auto. Qed.

Lemma mat_ext m p n f g : (forall x y, x < n -> y < n -> f x y = g x y) -> mat m p n f -> mat m p n g.
Proof. intros E H x y Hx Hy. rewrite <- E by auto. auto. Qed.

Lemma mat_frame (P : ptr -> Prop) m m' p n f :
  (forall x, valid m x -> ~ P x -> get m' x = get m x) -> rvalid m p (n * n) -> (forall i, i < n * n -> ~ P (padd p i)) ->
  mat m p n f -> mat m' p n f.
Proof.
  intros Hf V NP H x y Hx Hy. pose proof (idx_lt x y n n Hx Hy) as Hl. rewrite Hf by auto. auto.
Qed.

Lemma newp_ok (fresh : nat -> nat -> T) m n m' p : newp fresh m n = (m', p) ->
  p = (length m, 0) /\ lay m' = lay m ++ [n] /\ rvalid m' p n /\ length m' = S (length m) /\
  (forall q, valid m q -> valid m' q /\ get m' q = get m q).
Proof.
  intros E. injection E as <- <-. split; auto.
  assert (L : lay (m ++ [map (fresh (length m)) (seq 0 n)]) = lay m ++ [n]).
  { unfold lay. rewrite map_app. cbn. now rewrite map_length, seq_length. }
  split; auto. split; [|split; [rewrite app_length; cbn; lia|]].
  - intros i Hi. unfold valid. rewrite L. unfold padd. cbn [fst snd]. rewrite app_nth2; unfold lay; rewrite map_length; [|lia].
    rewrite Nat.sub_diag. cbn. lia.
  - intros q Hq. pose proof (valid_block m q Hq) as Hb. split.
    + unfold valid. rewrite L. rewrite app_nth1; auto. unfold lay. now rewrite map_length.
    + unfold MemProofs.get. now rewrite app_nth1.
Qed.

Lemma delp_ok (m : mem T) b : b < length m -> exists m', delp m (b, 0) = Ok m' /\ lay m' = set_nth b 0 (lay m) /\
  length m' = length m /\ (forall p, fst p <> b -> get m' p = get m p).
Proof.
  intros Hb. unfold delp. cbn [fst]. rewrite wr_ok by auto. eexists. split; [reflexivity|]. split; [|split].
  - unfold lay. apply (nth_ext _ _ 0 0); rewrite ?map_length, ?length_set_nth, ?map_length; auto.
    intros k Hk. rewrite nth_set_nth. change 0 with (length (@nil T)) at 1. rewrite map_nth, nth_set_nth.
    rewrite map_length. destruct ((b =? k) && (b <? length m)); auto.
    change 0 with (length (@nil T)). now rewrite map_nth.
  - apply length_set_nth.
  - intros p Hp. unfold MemProofs.get. rewrite nth_set_nth. destruct (Nat.eqb_spec b (fst p)); [congruence|auto].
Qed.

Context (Rth : ring_theory zero one add mul sub opp eq).
Add Ring TRing : Rth.

Lemma sumn_add f g n : add (sumn f n) (sumn g n) = sumn (fun i => add (f i) (g i)) n.
Proof. induction n as [|n IH]; cbn; [ring|]. rewrite <- IH. ring. Qed.
Lemma sumn_sub f g n : sub (sumn f n) (sumn g n) = sumn (fun i => sub (f i) (g i)) n.
Proof. induction n as [|n IH]; cbn; [ring|]. rewrite <- IH. ring. Qed.
Lemma sumn_split f a b : sumn f (a + b) = add (sumn f a) (sumn (fun i => f (a + i)) b).
Proof.
  induction b as [|b IH]; cbn.
  - rewrite Nat.add_0_r. ring.
  - rewrite Nat.add_succ_r. cbn. rewrite IH. ring.
Qed.
Lemma sumn_zero n : sumn (fun _ => zero) n = zero.
Proof. induction n as [|n IH]; cbn; auto. rewrite IH. ring. Qed.

Ltac ap := let i := fresh "i" in let j := fresh "j" in let Hi := fresh in let Hj := fresh in
  intros i j Hi Hj; rewrite ?padd_padd; neq.

Lemma strassen_ok (fresh : nat -> nat -> T) thr : forall fuel n c a b m,
  padded thr n -> n <= fuel + thr ->
  rvalid m c (n * n) -> rvalid m a (n * n) -> rvalid m b (n * n) ->
  apart c (n * n) a (n * n) -> apart c (n * n) b (n * n) -> apart a (n * n) b (n * n) ->
  exists m', strassen zero add sub mul fresh thr fuel c a b n m = Ok m' /\ ext m m' /\
    mat m' c n (mmul n (fun x y => get m (padd a (x + n * y))) (fun x y => get m (padd b (x + n * y)))) /\
    (forall p, valid m p -> ~ (inr c (n * n) p \/ inr a (n * n) p \/ inr b (n * n) p) -> get m' p = get m p).
Proof.
  induction fuel as [|fuel IH]; intros n c a b m Hp Hf Vc Va Vb Dca Dcb Dab; cbn [strassen].
  { destruct (Nat.leb_spec n thr); [|lia].
    destruct (cubic_ok c a b n n n m Vc Va Vb Dca Dcb) as [m' [E [L [H1 H2]]]].
    exists m'. split; auto. split; [now apply ext_refl_lay|]. split; [intros x y Hx Hy; apply H1; auto|].
    intros p Vp Np. apply H2. tauto. }
  destruct (Nat.leb_spec n thr) as [Hle|Hgt].
  { destruct (cubic_ok c a b n n n m Vc Va Vb Dca Dcb) as [m' [E [L [H1 H2]]]].
    exists m'. split; auto. split; [now apply ext_refl_lay|]. split; [intros x y Hx Hy; apply H1; auto|].
    intros p Vp Np. apply H2. tauto. }
  destruct (padded_half thr n Hp Hgt) as [q [En [Eq Pq]]]. rewrite Eq.
  assert (EQ : n * n = 4 * (q * q)) by nia. rewrite EQ in *.
  set (fa := fun x y => get m (padd a (x + n * y))). set (fb := fun x y => get m (padd b (x + n * y))).
  (* scratch buffers *)
  destruct (newp fresh m (q * q)) as [mA temp] eqn:N1. destruct (newp fresh mA (q * q)) as [mB temp2] eqn:N2.
  destruct (newp fresh mB (q * q)) as [mC temp3] eqn:N3.
  apply newp_ok in N1, N2, N3. destruct N1 as [P1 [L1 [V1 [S1 G1]]]], N2 as [P2 [L2 [V2 [S2 G2]]]], N3 as [P3 [L3 [V3 [S3 G3]]]].
  assert (GC : forall p, valid m p -> valid mC p /\ get mC p = get m p).
  { intros p Hv. destruct (G1 p Hv) as [W1 E1], (G2 p (proj1 (G1 p Hv))) as [W2 E2]. destruct (G3 p W2) as [W3 E3]. split; auto. congruence. }
  assert (VtC : rvalid mC temp (q * q)) by (intros i Hi; apply G3, G2; auto).
  assert (Vt2C : rvalid mC temp2 (q * q)) by (intros i Hi; apply G3; auto).
  assert (VcC : rvalid mC c (4 * (q * q))) by (intros i Hi; now apply GC, Vc).
  assert (VaC : rvalid mC a (4 * (q * q))) by (intros i Hi; now apply GC, Va).
  assert (VbC : rvalid mC b (4 * (q * q))) by (intros i Hi; now apply GC, Vb).
  assert (Bt : fst temp = length m) by (rewrite P1; reflexivity).
  assert (Bt2 : fst temp2 = S (length m)) by (rewrite P2; cbn; lia).
  assert (Bt3 : fst temp3 = S (S (length m))) by (rewrite P3; cbn; lia).
  assert (Hq0 : 0 < q) by (destruct q; lia).
  assert (Bc : fst c < length m) by (apply (valid_block m (padd c 0)); apply Vc; nia).
  assert (Ba : fst a < length m) by (apply (valid_block m (padd a 0)); apply Va; nia).
  assert (Bb : fst b < length m) by (apply (valid_block m (padd b 0)); apply Vb; nia).
  assert (X1 : apart c (4 * (q * q)) temp (q * q)) by (apply apart_block; lia).
  assert (X2 : apart c (4 * (q * q)) temp2 (q * q)) by (apply apart_block; lia).
  assert (X3 : apart c (4 * (q * q)) temp3 (q * q)) by (apply apart_block; lia).
  assert (X4 : apart a (4 * (q * q)) temp (q * q)) by (apply apart_block; lia).
  assert (X5 : apart a (4 * (q * q)) temp2 (q * q)) by (apply apart_block; lia).
  assert (X6 : apart a (4 * (q * q)) temp3 (q * q)) by (apply apart_block; lia).
  assert (X7 : apart b (4 * (q * q)) temp (q * q)) by (apply apart_block; lia).
  assert (X8 : apart b (4 * (q * q)) temp2 (q * q)) by (apply apart_block; lia).
  assert (X9 : apart b (4 * (q * q)) temp3 (q * q)) by (apply apart_block; lia).
  assert (X10 : apart temp (q * q) temp2 (q * q)) by (apply apart_block; lia).
  assert (X11 : apart temp (q * q) temp3 (q * q)) by (apply apart_block; lia).
  assert (X12 : apart temp2 (q * q) temp3 (q * q)) by (apply apart_block; lia).
  rewrite En.
  (* the three partition loops *)
  destruct (iter1_ok c a temp temp2 q mC VcC VaC VtC Vt2C Dca X1 X2 X4 X5 X10) as [m1 [E1 [Y1 [C0 [C1 [C2 [C3 [T1 [T2 F1]]]]]]]]].
  rewrite E1. cbn [bind].
  assert (Va1 : rvalid m1 a (4 * (q * q))) by (apply (rvalid_lay mC); auto).
  assert (Vb1 : rvalid m1 b (4 * (q * q))) by (apply (rvalid_lay mC); auto).
  destruct (iter2_ok a b q m1 Va1 Vb1 Dab) as [m2 [E2 [Y2 [A0 [A1 [A2 [A3 F2]]]]]]].
  rewrite E2. cbn [bind].
  assert (Lay2 : lay mC = lay m2) by congruence.
  destruct (iter3_ok c a b q m2) as [m3 [E3 [Y3 [B0 [B1 [B2 [B3 [A1' [A2' F3]]]]]]]]]; auto; try (apply (rvalid_lay mC); auto).
  rewrite E3. cbn [bind]. clear E1 E2 E3.
  assert (Lay3 : lay mC = lay m3) by congruence.
  (* entries of the two arguments, by quadrant *)
  set (A11 := fun x y => fa x y). set (A12 := fun x y => fa (q + x) y).
  set (A21 := fun x y => fa x (q + y)). set (A22 := fun x y => fa (q + x) (q + y)).
  set (B11 := fun x y => fb x y). set (B12 := fun x y => fb (q + x) y).
  set (B21 := fun x y => fb x (q + y)). set (B22 := fun x y => fb (q + x) (q + y)).
  assert (RA : forall k, k < 4 * (q * q) -> get mC (padd a k) = get m (padd a k)) by (intros k Hk; apply GC; auto).
  assert (RB : forall k, k < 4 * (q * q) -> get m1 (padd b k) = get m (padd b k)).
  { intros k Hk. rewrite F1; [now apply GC, Vb|..]; intros Hc; revert Hc; apply (inr_apart b (4 * (q * q))); auto using inr_padd, apart_sym. }
  assert (QA : forall x y, x < q -> y < q ->
      get mC (padd a (x + 2 * q * y)) = A11 x y /\ get mC (padd a (x + q + 2 * q * y)) = A12 x y /\
      get mC (padd a (x + 2 * q * (y + q))) = A21 x y /\ get mC (padd a (x + q + 2 * q * (y + q))) = A22 x y).
  { intros x y Hx Hy. destruct (quad_bounds q x y Hx Hy) as [? [? [? [? ?]]]]. rewrite !RA by auto.
    unfold A11, A12, A21, A22, fa. repeat split; f_equal; f_equal; lia. }
  assert (QB : forall x y, x < q -> y < q ->
      get m1 (padd b (x + 2 * q * y)) = B11 x y /\ get m1 (padd b (x + q + 2 * q * y)) = B12 x y /\
      get m1 (padd b (x + 2 * q * (y + q))) = B21 x y /\ get m1 (padd b (x + q + 2 * q * (y + q))) = B22 x y).
  { intros x y Hx Hy. destruct (quad_bounds q x y Hx Hy) as [? [? [? [? ?]]]]. rewrite !RB by auto.
    unfold B11, B12, B21, B22, fb. repeat split; f_equal; f_equal; lia. }
  remember (q * q) as Q eqn:HQ.
  (* matrices in memory m3 *)
  assert (HC : forall k, k < 4 * Q -> get m2 (padd c k) = get m1 (padd c k)).
  { intros k Hk. apply F2. intros Hc. revert Hc. apply (inr_apart c (4 * Q)); auto using inr_padd. }
  assert (K_c0 : mat m3 c q A11 /\ mat m3 (padd c Q) q (fun x y => add (A21 x y) (A22 x y)) /\ mat m3 (padd c (2 * Q)) q A22 /\
                 mat m3 (padd c (3 * Q)) q (fun x y => add (A11 x y) (A12 x y))).
  { assert (G : forall k f g, k = 0 \/ k = Q \/ k = 2 * Q \/ k = 3 * Q ->
       (forall x y, x < q -> y < q -> f x y = g x y) -> mat m1 (padd c k) q f -> mat m3 (padd c k) q g).
    { intros k f g Hk Hfg Hm x y Hx Hy. pose proof (idx_lt x y q q Hx Hy) as Hl. rewrite <- HQ in Hl.
      rewrite <- Hfg by auto. rewrite <- (Hm x y) by auto. rewrite !padd_padd.
      rewrite F3; [apply HC; lia|..]; intros Hc; revert Hc.
      - apply (inr_apart c (4 * Q)); auto. apply inr_padd. lia.
      - apply (inr_apart c (4 * Q)); [ap|]. apply inr_padd. lia.
      - apply (inr_apart c (4 * Q)); [ap|]. apply inr_padd. lia. }
    split; [|split; [|split]].
    - rewrite <- (padd_0 c). eapply (G 0); [auto| |rewrite padd_0; exact C0]. intros x y Hx Hy. now apply QA.
    - eapply (G Q); [auto| |exact C1]. intros x y Hx Hy. cbn beta. destruct (QA x y Hx Hy) as [? [? [-> ->]]]. reflexivity.
    - eapply (G (2 * Q)); [auto| |exact C2]. intros x y Hx Hy. now apply QA.
    - eapply (G (3 * Q)); [auto| |exact C3]. intros x y Hx Hy. cbn beta. destruct (QA x y Hx Hy) as [-> [-> ?]]. reflexivity. }
  assert (K_t : mat m3 temp q (fun x y => sub (A21 x y) (A11 x y)) /\ mat m3 temp2 q (fun x y => sub (A12 x y) (A22 x y))).
  { assert (G : forall t f, apart a (4 * Q) t Q -> apart b (4 * Q) t Q -> mat m1 t q f -> mat m3 t q f).
    { intros t f Ha Hb Hm x y Hx Hy. pose proof (idx_lt x y q q Hx Hy) as Hl. rewrite <- HQ in Hl.
      rewrite <- (Hm x y) by auto. rewrite F3; [apply F2|..]; intros Hc; revert Hc; apply (inr_apart t Q); try (apply inr_padd; lia).
      - now apply apart_sym.
      - now apply apart_sym.
      - ap.
      - ap. }
    split; apply G; auto.
    - apply (mat_ext m1 temp q) with (2 := T1). intros x y Hx Hy. cbn beta. destruct (QA x y Hx Hy) as [-> [? [-> ?]]]. reflexivity.
    - apply (mat_ext m1 temp2 q) with (2 := T2). intros x y Hx Hy. cbn beta. destruct (QA x y Hx Hy) as [? [-> [? ->]]]. reflexivity. }
  assert (cA0 : forall x y, x < q -> y < q -> get m2 (padd a (0 + (x + q * y))) = B11 x y).
  { intros x y Hx Hy. cbn [Nat.add]. rewrite (A0 x y) by auto. now apply QB. }
  assert (cA1 : forall x y, x < q -> y < q -> get m2 (padd a (Q + (x + q * y))) = B12 x y).
  { intros x y Hx Hy. rewrite <- padd_padd. rewrite (A1 x y) by auto. now apply QB. }
  assert (cA2 : forall x y, x < q -> y < q -> get m2 (padd a (2 * Q + (x + q * y))) = B21 x y).
  { intros x y Hx Hy. rewrite <- padd_padd. rewrite (A2 x y) by auto. now apply QB. }
  assert (cA3 : forall x y, x < q -> y < q -> get m2 (padd a (3 * Q + (x + q * y))) = B22 x y).
  { intros x y Hx Hy. rewrite <- padd_padd. rewrite (A3 x y) by auto. now apply QB. }
  assert (K_a0 : mat m3 a q B11).
  { intros x y Hx Hy. pose proof (idx_lt x y q q Hx Hy) as Hl. rewrite <- HQ in Hl.
    rewrite F3; [now apply cA0|..]; intros [j [Hj C]]; rewrite ?padd_padd in C; revert C; neq. }
  assert (K_a3 : mat m3 (padd a (3 * Q)) q B22).
  { intros x y Hx Hy. pose proof (idx_lt x y q q Hx Hy) as Hl. rewrite <- HQ in Hl.
    rewrite padd_padd. rewrite F3; [now apply cA3|..]; intros [j [Hj C]]; rewrite ?padd_padd in C; revert C; neq. }
  assert (K_a1 : mat m3 (padd a Q) q (fun x y => sub (B12 x y) (B22 x y))).
  { apply (mat_ext m3 _ q) with (2 := A1'). intros x y Hx Hy. cbn beta. now rewrite cA1, cA3. }
  assert (K_a2 : mat m3 (padd a (2 * Q)) q (fun x y => sub (B21 x y) (B11 x y))).
  { apply (mat_ext m3 _ q) with (2 := A2'). intros x y Hx Hy. cbn beta. now rewrite cA2, cA0. }
  assert (cC0 : forall x y, x < q -> y < q -> get m2 (padd c (0 + (x + q * y))) = A11 x y).
  { intros x y Hx Hy. pose proof (idx_lt x y q q Hx Hy) as Hl. rewrite <- HQ in Hl. cbn [Nat.add]. rewrite HC by lia. rewrite (C0 x y) by auto. now apply QA. }
  assert (cC2 : forall x y, x < q -> y < q -> get m2 (padd c (2 * Q + (x + q * y))) = A22 x y).
  { intros x y Hx Hy. pose proof (idx_lt x y q q Hx Hy) as Hl. rewrite <- HQ in Hl. rewrite HC by lia. rewrite <- padd_padd. rewrite (C2 x y) by auto. now apply QA. }
  assert (K_b0 : mat m3 b q (fun x y => add (A11 x y) (A22 x y))).
  { apply (mat_ext m3 _ q) with (2 := B0). intros x y Hx Hy. cbn beta. now rewrite cC0, cC2. }
  assert (K_b1 : mat m3 (padd b Q) q (fun x y => add (B11 x y) (B22 x y))).
  { apply (mat_ext m3 _ q) with (2 := B1). intros x y Hx Hy. cbn beta. now rewrite cA0, cA3. }
  assert (K_b2 : mat m3 (padd b (2 * Q)) q (fun x y => add (B11 x y) (B12 x y))).
  { apply (mat_ext m3 _ q) with (2 := B2). intros x y Hx Hy. cbn beta. now rewrite cA0, cA1. }
  assert (K_b3 : mat m3 (padd b (3 * Q)) q (fun x y => add (B21 x y) (B22 x y))).
  { apply (mat_ext m3 _ q) with (2 := B3). intros x y Hx Hy. cbn beta. now rewrite cA2, cA3. }
  destruct K_c0 as [K_c0 [K_c1 [K_c2 K_c3]]]. destruct K_t as [K_t K_t2].
  assert (F123 : forall p, valid m p -> ~ (inr c (4 * Q) p \/ inr a (4 * Q) p \/ inr b (4 * Q) p) -> get m3 p = get m p).
  { intros p Vp Np. pose proof (valid_block m p Vp) as Bp. rewrite F3.
    - rewrite F2 by tauto. rewrite F1; [now apply GC|tauto|..]; intros [j [Hj C]]; apply (f_equal fst) in C; unfold padd in C; cbn in C; lia.
    - tauto.
    - intros C. apply Np. right. left. revert C. apply inr_sub. lia.
    - intros C. apply Np. right. left. revert C. apply inr_sub. lia. }
  clear C0 C1 C2 C3 T1 T2 A0 A1 A2 A3 B0 B1 B2 B3 A1' A2' F1 F2 F3 QA QB RA RB HC cA0 cA1 cA2 cA3 cC0 cC2.
  assert (Vreg : forall p k n', rvalid mC p n' -> k + Q <= n' -> rvalid m3 (padd p k) Q).
  { intros p k n' Hv Hle. apply (rvalid_lay mC); auto. now apply (rvalid_sub mC p n'). }
  (* one recursive call *)
  assert (call : forall mm pc pa pb ga gb,
     rvalid mm pc Q -> rvalid mm pa Q -> rvalid mm pb Q -> apart pc Q pa Q -> apart pc Q pb Q -> apart pa Q pb Q ->
     mat mm pa q ga -> mat mm pb q gb ->
     exists m', strassen zero add sub mul fresh thr fuel pc pa pb q mm = Ok m' /\ ext mm m' /\ mat m' pc q (mmul q ga gb) /\
       (forall p f, rvalid mm p Q -> apart p Q pc Q -> apart p Q pa Q -> apart p Q pb Q -> mat mm p q f -> mat m' p q f) /\
       (forall p, valid mm p -> ~ (inr pc Q p \/ inr pa Q p \/ inr pb Q p) -> get m' p = get mm p)).
  { intros mm pc pa pb ga gb R1 R2 R3 R4 R5 R6 Ma Mb.
    destruct (IH q pc pa pb mm) as [m' [E [Ex [Mc Fr]]]]; rewrite <- ?HQ; auto; [lia|]. rewrite <- HQ in Fr.
    exists m'. split; auto. split; auto. split; [|split; auto].
    - apply (mat_ext m' pc q) with (2 := Mc). intros x y Hx Hy. unfold mmul. apply sumn_ext. intros z Hz.
      now rewrite (Ma z y), (Mb x z).
    - intros p f Vp D1 D2 D3 Mp. apply (mat_frame (fun x => inr pc Q x \/ inr pa Q x \/ inr pb Q x) mm); rewrite <- ?HQ; auto.
      intros i Hi [C|[C|C]]; revert C; apply (inr_apart p Q); auto using inr_padd. }
  assert (W_c0 : rvalid m3 c Q) by (rewrite <- (padd_0 c); apply (Vreg c 0 (4 * Q)); auto; lia).
  assert (W_c1 : rvalid m3 (padd c Q) Q) by (apply (Vreg c Q (4 * Q)); auto; lia).
  assert (W_c2 : rvalid m3 (padd c (2 * Q)) Q) by (apply (Vreg c (2 * Q) (4 * Q)); auto; lia).
  assert (W_c3 : rvalid m3 (padd c (3 * Q)) Q) by (apply (Vreg c (3 * Q) (4 * Q)); auto; lia).
  assert (W_a0 : rvalid m3 a Q) by (rewrite <- (padd_0 a); apply (Vreg a 0 (4 * Q)); auto; lia).
  assert (W_a1 : rvalid m3 (padd a Q) Q) by (apply (Vreg a Q (4 * Q)); auto; lia).
  assert (W_a2 : rvalid m3 (padd a (2 * Q)) Q) by (apply (Vreg a (2 * Q) (4 * Q)); auto; lia).
  assert (W_a3 : rvalid m3 (padd a (3 * Q)) Q) by (apply (Vreg a (3 * Q) (4 * Q)); auto; lia).
  assert (W_b0 : rvalid m3 b Q) by (rewrite <- (padd_0 b); apply (Vreg b 0 (4 * Q)); auto; lia).
  assert (W_b1 : rvalid m3 (padd b Q) Q) by (apply (Vreg b Q (4 * Q)); auto; lia).
  assert (W_b2 : rvalid m3 (padd b (2 * Q)) Q) by (apply (Vreg b (2 * Q) (4 * Q)); auto; lia).
  assert (W_b3 : rvalid m3 (padd b (3 * Q)) Q) by (apply (Vreg b (3 * Q) (4 * Q)); auto; lia).
  assert (W_t : rvalid m3 temp Q) by (apply (rvalid_lay mC); auto).
  assert (W_t2 : rvalid m3 temp2 Q) by (apply (rvalid_lay mC); auto).
  assert (W_t3 : rvalid m3 temp3 Q) by (apply (rvalid_lay mC); auto).
  Ltac vx H := match type of H with rvalid ?M _ _ => apply (rvalid_ext M); [assumption|exact H] end.
  (* M6 into temp3 *)
  destruct (call m3 temp3 temp (padd b (2 * Q)) _ _ W_t3 W_t W_b2 ltac:(ap) ltac:(ap) ltac:(ap) K_t K_b2) as [m4 [E4 [Ex4 [R6 [P4 F4]]]]].
  rewrite E4. cbn [bind]. clear E4.
  (* M7 into temp *)
  destruct (call m4 temp temp2 (padd b (3 * Q)) _ _ ltac:(vx W_t) ltac:(vx W_t2) ltac:(vx W_b3) ltac:(ap) ltac:(ap) ltac:(ap)
    (P4 temp2 _ W_t2 ltac:(ap) ltac:(ap) ltac:(ap) K_t2) (P4 (padd b (3 * Q)) _ W_b3 ltac:(ap) ltac:(ap) ltac:(ap) K_b3)) as [m5 [E5 [Ex5 [R7 [P5 F5]]]]].
  rewrite E5. cbn [bind]. clear E5.
  assert (Ex35 : ext m3 m5) by (eapply ext_trans; eassumption).
  assert (PP5 : forall p f, rvalid m3 p Q -> apart p Q temp3 Q -> apart p Q temp Q -> apart p Q temp2 Q -> apart p Q (padd b (2 * Q)) Q -> apart p Q (padd b (3 * Q)) Q -> mat m3 p q f -> mat m5 p q f).
  { intros p f V Z1 Z2 Z3 Z4 Z5 Mp. apply P5; [vx V|auto|auto|auto|]. apply P4; auto. }
  (* M1 into temp2 *)
  destruct (call m5 temp2 b (padd b Q) _ _ ltac:(vx W_t2) ltac:(vx W_b0) ltac:(vx W_b1) ltac:(ap) ltac:(ap) ltac:(ap)
    (PP5 b _ W_b0 ltac:(ap) ltac:(ap) ltac:(ap) ltac:(ap) ltac:(ap) K_b0) (PP5 (padd b Q) _ W_b1 ltac:(ap) ltac:(ap) ltac:(ap) ltac:(ap) ltac:(ap) K_b1)) as [m6 [E6 [Ex6 [R1 [P6 F6]]]]].
  rewrite E6. cbn [bind]. clear E6.
  assert (Ex36 : ext m3 m6) by (eapply ext_trans; eassumption).
  (* M2 into b0 *)
  assert (PPca : forall p f k, (p = padd c k \/ p = padd a k) -> k + Q <= 4 * Q -> rvalid m3 p Q -> mat m3 p q f -> mat m6 p q f).
  { intros p f k Hpk Hk V Mp. apply P6.
    - vx V.
    - destruct Hpk; subst p; ap.
    - destruct Hpk; subst p; ap.
    - destruct Hpk; subst p; ap.
    - apply PP5; auto; destruct Hpk; subst p; ap. }
  assert (N_c0 : mat m6 c q A11) by (apply (PPca c A11 0); auto; [left; symmetry; apply padd_0|lia]).
  assert (N_c1 : mat m6 (padd c Q) q (fun x y => add (A21 x y) (A22 x y))) by (eapply (PPca _ _ Q); auto; lia).
  assert (N_c2 : mat m6 (padd c (2 * Q)) q A22) by (apply (PPca _ _ (2 * Q)); auto; lia).
  assert (N_c3 : mat m6 (padd c (3 * Q)) q (fun x y => add (A11 x y) (A12 x y))) by (apply (PPca _ _ (3 * Q)); auto; lia).
  assert (N_a0 : mat m6 a q B11) by (apply (PPca a B11 0); auto; [right; symmetry; apply padd_0|lia]).
  assert (N_a1 : mat m6 (padd a Q) q (fun x y => sub (B12 x y) (B22 x y))) by (apply (PPca _ _ Q); auto; lia).
  assert (N_a2 : mat m6 (padd a (2 * Q)) q (fun x y => sub (B21 x y) (B11 x y))) by (apply (PPca _ _ (2 * Q)); auto; lia).
  assert (N_a3 : mat m6 (padd a (3 * Q)) q B22) by (apply (PPca _ _ (3 * Q)); auto; lia).
  assert (N_t : mat m6 temp q (mmul q (fun x y => sub (A12 x y) (A22 x y)) (fun x y => add (B21 x y) (B22 x y)))).
  { apply P6; try ap; auto. vx W_t. }
  assert (N_t3 : mat m6 temp3 q (mmul q (fun x y => sub (A21 x y) (A11 x y)) (fun x y => add (B11 x y) (B12 x y)))).
  { apply P6; try ap; [vx W_t3|]. apply P5; try ap; auto. vx W_t3. }
  destruct (call m6 b (padd c Q) a _ _ ltac:(vx W_b0) ltac:(vx W_c1) ltac:(vx W_a0) ltac:(ap) ltac:(ap) ltac:(ap) N_c1 N_a0) as [m7 [E7 [Ex7 [R2 [P7 F7]]]]].
  rewrite E7. cbn [bind]. clear E7.
  assert (Ex37 : ext m3 m7) by (eapply ext_trans; eassumption).
  destruct (call m7 (padd b Q) c (padd a Q) _ _ ltac:(vx W_b1) ltac:(vx W_c0) ltac:(vx W_a1) ltac:(ap) ltac:(ap) ltac:(ap)
     (P7 c _ ltac:(vx W_c0) ltac:(ap) ltac:(ap) ltac:(ap) N_c0) (P7 (padd a Q) _ ltac:(vx W_a1) ltac:(ap) ltac:(ap) ltac:(ap) N_a1)) as [m8 [E8 [Ex8 [R3 [P8 F8]]]]].
  rewrite E8. cbn [bind]. clear E8.
  assert (Ex38 : ext m3 m8) by (eapply ext_trans; eassumption).
  assert (PP8 : forall p f, rvalid m3 p Q -> apart p Q b Q -> apart p Q (padd c Q) Q -> apart p Q a Q -> apart p Q (padd b Q) Q -> apart p Q c Q -> apart p Q (padd a Q) Q -> mat m6 p q f -> mat m8 p q f).
  { intros p f V Z1 Z2 Z3 Z4 Z5 Z6 Mp. apply P8; [vx V|auto|auto|auto|]. apply P7; [vx V|auto|auto|auto|auto]. }
  destruct (call m8 (padd b (2 * Q)) (padd c (2 * Q)) (padd a (2 * Q)) _ _ ltac:(vx W_b2) ltac:(vx W_c2) ltac:(vx W_a2) ltac:(ap) ltac:(ap) ltac:(ap)
     (PP8 (padd c (2 * Q)) _ W_c2 ltac:(ap) ltac:(ap) ltac:(ap) ltac:(ap) ltac:(ap) ltac:(ap) N_c2)
     (PP8 (padd a (2 * Q)) _ W_a2 ltac:(ap) ltac:(ap) ltac:(ap) ltac:(ap) ltac:(ap) ltac:(ap) N_a2)) as [m9 [E9 [Ex9 [R4 [P9 F9]]]]].
  rewrite E9. cbn [bind]. clear E9.
  assert (Ex39 : ext m3 m9) by (eapply ext_trans; eassumption).
  destruct (call m9 (padd b (3 * Q)) (padd c (3 * Q)) (padd a (3 * Q)) _ _ ltac:(vx W_b3) ltac:(vx W_c3) ltac:(vx W_a3) ltac:(ap) ltac:(ap) ltac:(ap)
     (P9 (padd c (3 * Q)) _ ltac:(vx W_c3) ltac:(ap) ltac:(ap) ltac:(ap) (PP8 (padd c (3 * Q)) _ W_c3 ltac:(ap) ltac:(ap) ltac:(ap) ltac:(ap) ltac:(ap) ltac:(ap) N_c3))
     (P9 (padd a (3 * Q)) _ ltac:(vx W_a3) ltac:(ap) ltac:(ap) ltac:(ap) (PP8 (padd a (3 * Q)) _ W_a3 ltac:(ap) ltac:(ap) ltac:(ap) ltac:(ap) ltac:(ap) ltac:(ap) N_a3))) as [m10 [E10 [Ex10 [R5 [P10 F10]]]]].
  rewrite E10. cbn [bind]. clear E10.
  assert (Ex310 : ext m3 m10) by (eapply ext_trans; eassumption).
  (* the seven products are all in place *)
  assert (Z_t2 : mat m10 temp2 q (mmul q (fun x y => add (A11 x y) (A22 x y)) (fun x y => add (B11 x y) (B22 x y)))).
  { apply P10; try ap; [vx W_t2|]. apply P9; try ap; [vx W_t2|]. apply PP8; try ap; auto. }
  assert (Z_t : mat m10 temp q (mmul q (fun x y => sub (A12 x y) (A22 x y)) (fun x y => add (B21 x y) (B22 x y)))).
  { apply P10; try ap; [vx W_t|]. apply P9; try ap; [vx W_t|]. apply PP8; try ap; auto. }
  assert (Z_t3 : mat m10 temp3 q (mmul q (fun x y => sub (A21 x y) (A11 x y)) (fun x y => add (B11 x y) (B12 x y)))).
  { apply P10; try ap; [vx W_t3|]. apply P9; try ap; [vx W_t3|]. apply PP8; try ap; auto. }
  assert (Z_b0 : mat m10 b q (mmul q (fun x y => add (A21 x y) (A22 x y)) B11)).
  { apply P10; try ap; [vx W_b0|]. apply P9; try ap; [vx W_b0|]. apply P8; try ap; [vx W_b0|]. exact R2. }
  assert (Z_b1 : mat m10 (padd b Q) q (mmul q A11 (fun x y => sub (B12 x y) (B22 x y)))).
  { apply P10; try ap; [vx W_b1|]. apply P9; try ap; [vx W_b1|]. exact R3. }
  assert (Z_b2 : mat m10 (padd b (2 * Q)) q (mmul q A22 (fun x y => sub (B21 x y) (B11 x y)))).
  { apply P10; try ap; [vx W_b2|]. exact R4. }
  assert (V10 : forall p n', rvalid mC p n' -> rvalid m10 p n').
  { intros p n' Hv. apply (rvalid_ext m3); auto. apply (rvalid_lay mC); auto. }
  pose proof (iter4_ok c b temp temp2 temp3 q m10) as I4. cbv zeta in I4. rewrite <- HQ in I4.
  destruct (I4 (V10 _ _ VcC) (V10 _ _ VbC) (V10 _ _ VtC) (V10 _ _ Vt2C) (V10 _ _ V3) Dcb X1 X2 X3 _ _ _ _ _ _ _ Z_t2 Z_b0 Z_b1 Z_b2 R5 Z_t3 Z_t)
    as [m11 [E11 [Y11 [H11 F11]]]]. clear I4.
  rewrite E11. cbn [bind]. clear E11.
  (* freeing the scratch buffers *)
  destruct Ex310 as [kx Lx].
  assert (L11 : lay m11 = lay m ++ Q :: Q :: Q :: repeat 0 kx).
  { rewrite Y11, Lx, <- Lay3, L3, L2, L1. rewrite <- !app_assoc. reflexivity. }
  assert (Hlen : length m11 = length m + 3 + kx).
  { unfold lay in L11. apply (f_equal (@length nat)) in L11. rewrite app_length, !map_length in L11. cbn [length] in L11. rewrite repeat_length in L11. lia. }
  destruct (delp_ok m11 (length m)) as [m12 [E12 [L12 [S12 G12]]]]; [lia|].
  destruct (delp_ok m12 (length mA)) as [m13 [E13 [L13 [S13 G13]]]]; [lia|].
  destruct (delp_ok m13 (length mB)) as [m14 [E14 [L14 [S14 G14]]]]; [lia|].
  rewrite P1, E12. cbn [bind]. rewrite P2, E13. cbn [bind]. rewrite P3, E14.
  exists m14. split; auto.
  assert (Gm : forall p, fst p < length m -> get m14 p = get m11 p).
  { intros p Hpl. rewrite G14, G13, G12 by lia. reflexivity. }
  split; [|split].
  - exists (3 + kx). rewrite L14, L13, L12, L11, S2, S1.
    assert (Hs : forall l1 n0 (x : nat) l2, n0 = length l1 -> set_nth n0 0 (l1 ++ x :: l2) = l1 ++ 0 :: l2).
    { clear. intros l1 n0 x l2 ->. induction l1; intros; cbn; auto. f_equal. auto. }
    assert (Hl : length (lay m) = length m) by (unfold lay; apply map_length).
    rewrite (Hs (lay m) (length m)) by auto.
    change (lay m ++ 0 :: Q :: Q :: repeat 0 kx) with (lay m ++ [0] ++ Q :: Q :: repeat 0 kx). rewrite app_assoc.
    rewrite (Hs (lay m ++ [0])) by (rewrite app_length; cbn; lia).
    rewrite <- app_assoc. cbn [app].
    change (lay m ++ 0 :: 0 :: Q :: repeat 0 kx) with (lay m ++ [0; 0] ++ Q :: repeat 0 kx). rewrite app_assoc.
    rewrite (Hs (lay m ++ [0; 0])) by (rewrite app_length; cbn; lia).
    rewrite <- app_assoc. reflexivity.
  - (* the block identities *)
    assert (Mid : forall x y, x < q -> y < q ->
       get m14 (padd c (x + 2 * q * y)) = mmul (2 * q) fa fb x y /\
       get m14 (padd c (x + q + 2 * q * y)) = mmul (2 * q) fa fb (q + x) y /\
       get m14 (padd c (x + 2 * q * (y + q))) = mmul (2 * q) fa fb x (q + y) /\
       get m14 (padd c (x + q + 2 * q * (y + q))) = mmul (2 * q) fa fb (q + x) (q + y)).
    { intros x y Hx Hy. destruct (H11 x y Hx Hy) as [Q1 [Q2 [Q3 Q4]]]. rewrite !Gm by exact Bc. rewrite Q1, Q2, Q3, Q4.
      unfold mmul. replace (2 * q) with (q + q) by lia. rewrite !sumn_split.
      unfold A11, A12, A21, A22, B11, B12, B21, B22.
      repeat split; repeat rewrite ?sumn_add, ?sumn_sub; apply sumn_ext; intros z Hz; ring. }
    intros x y Hx Hy.
    destruct (Nat.lt_ge_cases x q) as [Lx'|Lx'], (Nat.lt_ge_cases y q) as [Ly|Ly].
    + now apply Mid.
    + destruct (Mid x (y - q) ltac:(lia) ltac:(lia)) as [_ [_ [M _]]].
      replace (y - q + q) with y in M by lia. replace (q + (y - q)) with y in M by lia. exact M.
    + destruct (Mid (x - q) y ltac:(lia) ltac:(lia)) as [_ [M _]].
      replace (x - q + q) with x in M by lia. replace (q + (x - q)) with x in M by lia. exact M.
    + destruct (Mid (x - q) (y - q) ltac:(lia) ltac:(lia)) as [_ [_ [_ M]]].
      replace (y - q + q) with y in M by lia. replace (q + (y - q)) with y in M by lia.
      replace (x - q + q) with x in M by lia. replace (q + (x - q)) with x in M by lia. exact M.
  - intros p Vp Np. rewrite Gm by (now apply (valid_block m)). 
    assert (V3p : valid m3 p) by (apply (valid_lay mC); auto; now apply GC).
    assert (Bp : fst p < length m) by now apply (valid_block m).
    assert (Nt : forall t, fst t >= length m -> ~ inr t Q p).
    { intros t Ht [j [Hj C]]. apply (f_equal fst) in C. unfold padd in C. cbn in C. lia. }
    assert (Ns : forall b0 k, ~ inr b0 (4 * Q) p -> k + Q <= 4 * Q -> ~ inr (padd b0 k) Q p).
    { intros b0 k Hn Hk C. apply Hn. revert C. now apply inr_sub. }
    assert (Nc : ~ inr c (4 * Q) p) by tauto. assert (Na : ~ inr a (4 * Q) p) by tauto. assert (Nb : ~ inr b (4 * Q) p) by tauto.
    assert (Nc0 : ~ inr c Q p) by (rewrite <- (padd_0 c); apply Ns; auto; lia).
    assert (Na0 : ~ inr a Q p) by (rewrite <- (padd_0 a); apply Ns; auto; lia).
    assert (Nb0 : ~ inr b Q p) by (rewrite <- (padd_0 b); apply Ns; auto; lia).
    rewrite F11 by auto.
    rewrite F10 by (try (eapply valid_ext; eassumption); intros [C|[C|C]]; revert C; apply Ns; auto; lia).
    rewrite F9 by (try (eapply valid_ext; eassumption); intros [C|[C|C]]; revert C; apply Ns; auto; lia).
    rewrite F8 by (try (eapply valid_ext; eassumption); intros [C|[C|C]]; revert C; auto; apply Ns; auto; lia).
    rewrite F7 by (try (eapply valid_ext; eassumption); intros [C|[C|C]]; revert C; auto; apply Ns; auto; lia).
    rewrite F6 by (try (eapply valid_ext; eassumption); intros [C|[C|C]]; revert C; auto; first [apply Nt; lia|apply Ns; auto; lia]).
    rewrite F5 by (try (eapply valid_ext; eassumption); intros [C|[C|C]]; revert C; auto; first [apply Nt; lia|apply Ns; auto; lia]).
    rewrite F4 by (auto; intros [C|[C|C]]; revert C; auto; first [apply Nt; lia|apply Ns; auto; lia]).
    apply F123; auto.
Qed.

End R.
