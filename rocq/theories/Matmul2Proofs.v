(** Proofs about padding, the forward pass of matmul and its shaper. *)
From Coq Require Import Ring Ring_theory.
From Verif Require Import Common ShapeModel ShapeSpec ShapeProofs TransformProofs MemModel MemProofs MatmulModel MatmulSpec MatmulProofs.

Section R2.
Context {T : Type} (zero one : T) (add mul sub : T -> T -> T) (opp : T -> T).
Notation get := (get zero).
Notation sumn := (sumn zero add).
Notation mmul := (mmul zero add mul).
Context (Rth : ring_theory zero one add mul sub opp eq).
Add Ring TRing2 : Rth.

Ltac neq := try match goal with |- ?x = ?y -> False => change (x <> y) end; first
  [ match goal with H : apart ?p _ ?q _ |- padd ?p _ <> padd ?q _ => apply H; lia end
  | match goal with H : apart ?p _ ?q _ |- padd ?q _ <> padd ?p _ => apply not_eq_sym; apply H; lia end
  | let C := fresh in intros C; apply padd_inj in C; lia ].

(** a rectangular block copy between buffers with different row lengths *)
Lemma copy2_ok dst src n k S R (fd fs : nat -> nat -> nat) m :
  k <= S -> k <= R -> (forall y x, fd y x = x + S * y) -> (forall y x, fs y x = x + R * y) ->
  rvalid m dst (S * n) -> rvalid m src (R * n) -> apart dst (S * n) src (R * n) ->
  exists m', for_ n (fun y m => for_ k (fun x m => cpy (padd dst (fd y x)) (padd src (fs y x)) m) m) m = Ok m' /\ lay m' = lay m /\
    (forall x y, x < k -> y < n -> get m' (padd dst (x + S * y)) = get m (padd src (x + R * y))) /\
    (forall p, (forall x y, x < k -> y < n -> p <> padd dst (x + S * y)) -> get m' p = get m p).
Proof.
  intros HS HR Hfd Hfs Vd Vs D.
  set (W := fun y x => [(padd dst (x + S * y), get m (padd src (x + R * y)))]).
  destruct (for2_scatter zero n k (fun y x m1 => cpy (padd dst (fd y x)) (padd src (fs y x)) m1) W m) as [m' [E [L [H1 H2]]]].
  - intros y x m1 Hy Hx HL Hg. rewrite Hfd, Hfs.
    assert (B1 : x + S * y < S * n) by (apply idx_lt; lia). assert (B2 : x + R * y < R * n) by (apply idx_lt; lia).
    rewrite (cpy_ok zero) by (apply (valid_lay m); auto). unfold W, puts. cbn [fold_left fst snd]. f_equal. f_equal. apply Hg.
    intros y' x' Hy' Hx' _ [C|[]]. cbn in C. revert C. assert (x' + S * y' < S * n) by (apply idx_lt; lia). neq.
  - intros y x p v Hy Hx [C|[]]. apply pair_equal_spec in C. destruct C. subst p. apply Vd. apply idx_lt; lia.
  - intros y x y' x' p v w Hy Hx Hy' Hx' [C|[]] [C'|[]]. apply pair_equal_spec in C, C'. destruct C as [C1 C2], C' as [C3 C4]. subst p v w.
    apply padd_inj in C3. destruct (idx_inj x' y' x y S) as [-> ->]; auto; lia.
  - exists m'. split; [exact E|]. split; auto. split.
    + intros x y Hx Hy. apply (H1 y x); auto. now left.
    + intros p Hp. apply H2. intros y x Hy Hx [C|[]]. cbn in C. now apply (Hp x y Hx Hy).
Qed.

Lemma memset_ok p n m : rvalid m p n ->
  exists m', memset0p zero p n m = Ok m' /\ lay m' = lay m /\ (forall i, i < n -> get m' (padd p i) = zero) /\
    (forall q, ~ inr p n q -> get m' q = get m q).
Proof.
  intros V. unfold memset0p.
  destruct (for_scatter zero n (fun i m1 => wrp m1 (padd p i) zero) (fun i => [(padd p i, zero)]) m) as [m' [E [L [H1 H2]]]].
  - intros i m1 Hi HL _. rewrite wrp_ok by (apply (valid_lay m); auto). reflexivity.
  - intros i q v Hi [C|[]]. apply pair_equal_spec in C. destruct C. subst q. auto.
  - intros i j q v w Hi Hj [C|[]] [C'|[]]. congruence.
  - exists m'. split; auto. split; auto. split.
    + intros i Hi. apply (H1 i); auto. now left.
    + intros q Hq. apply H2. intros i Hi [C|[]]. apply Hq. cbn in C. subst q. now apply inr_padd.
Qed.

Lemma newp3 (fresh : nat -> nat -> T) m n mA p1 mB p2 mC p3 :
  newp fresh m n = (mA, p1) -> newp fresh mA n = (mB, p2) -> newp fresh mB n = (mC, p3) ->
  p1 = (length m, 0) /\ p2 = (length m + 1, 0) /\ p3 = (length m + 2, 0) /\
  lay mC = lay m ++ [n; n; n] /\ rvalid mC p1 n /\ rvalid mC p2 n /\ rvalid mC p3 n /\
  (forall q, valid m q -> valid mC q /\ get mC q = get m q).
Proof.
  intros N1 N2 N3. apply (newp_ok zero) in N1, N2, N3.
  destruct N1 as [P1 [L1 [V1 [S1 G1]]]], N2 as [P2 [L2 [V2 [S2 G2]]]], N3 as [P3 [L3 [V3 [S3 G3]]]].
  split; auto. split; [rewrite P2; f_equal; lia|]. split; [rewrite P3; f_equal; lia|].
  split; [rewrite L3, L2, L1, <- !app_assoc; reflexivity|].
  split; [intros i Hi; apply G3, G2; auto|]. split; [intros i Hi; apply G3; auto|]. split; auto.
  intros q Hq. destruct (G1 q Hq) as [W1 E1], (G2 q (proj1 (G1 q Hq))) as [W2 E2]. destruct (G3 q W2) as [W3 E3]. split; auto. congruence.
Qed.

Lemma del3 (m0 m : mem T) n k :
  lay m = lay m0 ++ n :: n :: n :: repeat 0 k ->
  exists m1 m2 m3, delp m (length m0, 0) = Ok m1 /\ delp m1 (length m0 + 1, 0) = Ok m2 /\ delp m2 (length m0 + 2, 0) = Ok m3 /\
    ext m0 m3 /\ (forall p, fst p < length m0 -> get m3 p = get m p).
Proof.
  intros L11.
  assert (Hlen : length m = length m0 + 3 + k).
  { unfold lay in L11. apply (f_equal (@length nat)) in L11. rewrite app_length, !map_length in L11. cbn [length] in L11. rewrite repeat_length in L11. lia. }
  destruct (delp_ok zero m (length m0)) as [m12 [E12 [L12 [S12 G12]]]]; [lia|].
  destruct (delp_ok zero m12 (length m0 + 1)) as [m13 [E13 [L13 [S13 G13]]]]; [lia|].
  destruct (delp_ok zero m13 (length m0 + 2)) as [m14 [E14 [L14 [S14 G14]]]]; [lia|].
  exists m12, m13, m14. split; auto. split; auto. split; auto. split.
  - exists (3 + k). rewrite L14, L13, L12, L11.
    assert (Hs : forall l1 n0 (x : nat) l2, n0 = length l1 -> set_nth n0 0 (l1 ++ x :: l2) = l1 ++ 0 :: l2).
    { clear. intros l1 n0 x l2 ->. induction l1; intros; cbn; auto. f_equal. auto. }
    assert (Hl : length (lay m0) = length m0) by (unfold lay; apply map_length).
    rewrite (Hs (lay m0) (length m0)) by auto.
    change (lay m0 ++ 0 :: n :: n :: repeat 0 k) with (lay m0 ++ [0] ++ n :: n :: repeat 0 k). rewrite app_assoc.
    rewrite (Hs (lay m0 ++ [0])) by (rewrite app_length; cbn; lia).
    rewrite <- app_assoc. cbn [app].
    change (lay m0 ++ 0 :: 0 :: n :: repeat 0 k) with (lay m0 ++ [0; 0] ++ n :: repeat 0 k). rewrite app_assoc.
    rewrite (Hs (lay m0 ++ [0; 0])) by (rewrite app_length; cbn; lia).
    rewrite <- app_assoc. reflexivity.
  - intros p Hp. rewrite G14, G13, G12 by lia. reflexivity.
Qed.

Lemma strassen_one_ok (fresh : nat -> nat -> T) thr c a b X Y Z P m :
  X <= P -> Y <= P -> Z <= P -> padded thr P -> 0 < X -> 0 < Y -> 0 < Z ->
  rvalid m c (X * Y) -> rvalid m a (Z * Y) -> rvalid m b (X * Z) ->
  exists m', matmul_strassen_one zero add sub mul fresh thr c a b X Y Z P m = Ok m' /\ ext m m' /\
    (forall x y, x < X -> y < Y -> get m' (padd c (x + X * y)) =
       sumn (fun z => mul (get m (padd a (z + Z * y))) (get m (padd b (x + X * z)))) Z) /\
    (forall p, valid m p -> ~ inr c (X * Y) p -> get m' p = get m p).
Proof.
  intros LX LY LZ HP PX PY PZ Vc Va Vb. unfold matmul_strassen_one.
  destruct (newp fresh m (P * P)) as [mA out] eqn:N1. destruct (newp fresh mA (P * P)) as [mB a'] eqn:N2.
  destruct (newp fresh mB (P * P)) as [mC b'] eqn:N3.
  destruct (newp3 fresh m _ _ _ _ _ _ _ N1 N2 N3) as [Q1 [Q2 [Q3 [LC [VoC [VaC [VbC GC]]]]]]]. clear N1 N2 N3.
  assert (Bc : fst c < length m) by (apply (valid_block m (padd c 0)); apply Vc; nia).
  assert (Ba : fst a < length m) by (apply (valid_block m (padd a 0)); apply Va; nia).
  assert (Bb : fst b < length m) by (apply (valid_block m (padd b 0)); apply Vb; nia).
  assert (Vca : rvalid mC c (X * Y)) by (intros i Hi; now apply GC, Vc).
  assert (Vaa : rvalid mC a (Z * Y)) by (intros i Hi; now apply GC, Va).
  assert (Vba : rvalid mC b (X * Z)) by (intros i Hi; now apply GC, Vb).
  assert (Fo : fst out = length m) by (rewrite Q1; reflexivity). assert (Fa : fst a' = length m + 1) by (rewrite Q2; reflexivity).
  assert (Fb : fst b' = length m + 2) by (rewrite Q3; reflexivity).
  assert (AP : forall p q n k, fst p <> fst q -> apart p n q k) by (intros; now apply apart_block).
  assert (NI : forall p q n k, fst p <> fst q -> ~ inr q n (padd p k)).
  { intros p q n k Hne [j [_ C]]. apply (f_equal fst) in C. unfold padd in C. cbn in C. congruence. }
  assert (NP : forall p q, fst p <> fst q -> forall i, p <> padd q i).
  { intros p q Hne i C. apply (f_equal fst) in C. unfold padd in C. cbn in C. congruence. }
  destruct (memset_ok a' (P * P) mC VaC) as [m1 [E1 [L1 [Z1 F1]]]]. rewrite E1. cbn [bind].
  destruct (memset_ok b' (P * P) m1) as [m2 [E2 [L2 [Z2 F2]]]]; [apply (rvalid_lay mC); auto|]. rewrite E2. cbn [bind].
  assert (LC2 : lay mC = lay m2) by congruence.
  assert (SubP : forall k, k <= P -> P * k <= P * P) by (intros; nia).
  destruct (copy2_ok a' a Y Z P Z (fun y z => z + P * y) (fun y z => Z * y + z) m2) as [m3 [E3 [L3 [H3 F3]]]]; auto; try lia.
  { apply (rvalid_lay mC); auto. intros i Hi. apply VaC. specialize (SubP Y LY). lia. }
  { apply (rvalid_lay mC); auto. }
  { apply AP. lia. }
  rewrite E3. cbn [bind].
  destruct (copy2_ok b' b Z X P X (fun z x => x + P * z) (fun z x => x + X * z) m3) as [m4 [E4 [L4 [H4 F4]]]]; auto; try lia.
  { apply (rvalid_lay mC); [congruence|]. intros i Hi. apply VbC. specialize (SubP Z LZ). lia. }
  { apply (rvalid_lay mC); auto; congruence. }
  { apply AP. lia. }
  rewrite E4. cbn [bind].
  assert (LC4 : lay mC = lay m4) by congruence.
  (* the padded matrices *)
  assert (MA : forall z y, z < P -> y < P -> get m4 (padd a' (z + P * y)) =
     if (z <? Z) && (y <? Y) then get m (padd a (z + Z * y)) else zero).
  { intros z y Hz Hy. pose proof (idx_lt z y P P Hz Hy) as Hl.
    rewrite F4 by (intros x z' Hx Hz'; apply NP; cbn; lia).
    destruct (Nat.ltb_spec z Z) as [z1|z1]; [destruct (Nat.ltb_spec y Y) as [y1|y1]|]; cbn [andb].
    - rewrite H3 by auto. pose proof (idx_lt z y Z Y z1 y1) as Hl2.
      rewrite F2 by (apply NI; lia). rewrite F1 by (apply NI; lia). apply GC. auto.
    - rewrite F3.
      + rewrite F2 by (apply NI; lia). apply Z1. auto.
      + intros z' y' Hz' Hy' C. apply padd_inj in C. apply idx_inj in C; lia.
    - rewrite F3.
      + rewrite F2 by (apply NI; lia). apply Z1. auto.
      + intros z' y' Hz' Hy' C. apply padd_inj in C. apply idx_inj in C; lia. }
  assert (MB : forall x z, x < P -> z < P -> get m4 (padd b' (x + P * z)) =
     if (x <? X) && (z <? Z) then get m (padd b (x + X * z)) else zero).
  { intros x z Hx Hz. pose proof (idx_lt x z P P Hx Hz) as Hl.
    destruct (Nat.ltb_spec x X) as [x1|x1]; [destruct (Nat.ltb_spec z Z) as [z1|z1]|]; cbn [andb].
    - rewrite H4 by auto. pose proof (idx_lt x z X Z x1 z1) as Hl2.
      rewrite F3 by (intros x' z' Hx' Hz'; apply NP; cbn; lia).
      rewrite F2 by (apply NI; lia). rewrite F1 by (apply NI; lia). apply GC. auto.
    - rewrite F4.
      + rewrite F3 by (intros x' z' Hx' Hz'; apply NP; cbn; lia). apply Z2. auto.
      + intros x' z' Hx' Hz' C. apply padd_inj in C. apply idx_inj in C; lia.
    - rewrite F4.
      + rewrite F3 by (intros x' z' Hx' Hz'; apply NP; cbn; lia). apply Z2. auto.
      + intros x' z' Hx' Hz' C. apply padd_inj in C. apply idx_inj in C; lia. }
  assert (FR4 : forall p, valid m p -> get m4 p = get m p).
  { intros p Hv. pose proof (valid_block m p Hv) as Bp.
    assert (NI' : forall q n, length m <= fst q -> ~ inr q n p).
    { intros q n Hq [j [_ C]]. apply (f_equal fst) in C. unfold padd in C. cbn in C. lia. }
    rewrite F4 by (intros; apply NP; lia). rewrite F3 by (intros; apply NP; lia).
    rewrite F2 by (apply NI'; lia). rewrite F1 by (apply NI'; lia). now apply GC. }
  destruct (strassen_ok zero one add mul sub opp Rth fresh thr P P out a' b' m4) as [m5 [E5 [X5 [M5 F5]]]]; auto; try lia; try (apply (rvalid_lay mC); auto); try (apply AP; lia).
  rewrite E5. cbn [bind].
  destruct (copy2_ok c out Y X X P (fun y x => y * X + x) (fun y x => y * P + x) m5) as [m6 [E6 [L6 [H6 F6]]]]; auto; try lia.
  { apply (rvalid_ext m4); auto. apply (rvalid_lay mC); auto. }
  { apply (rvalid_ext m4); auto. apply (rvalid_lay mC); auto. intros i Hi. apply VoC. specialize (SubP Y LY). lia. }
  { apply AP. lia. }
  rewrite E6. cbn [bind].
  destruct X5 as [k5 X5].
  destruct (del3 m m6 (P * P) k5) as [d1 [d2 [d3 [D1 [D2 [D3 [Ex Gd]]]]]]].
  { rewrite L6, X5, <- LC4, LC. rewrite <- app_assoc. reflexivity. }
  rewrite Q1, D1. cbn [bind]. rewrite Q2, D2. cbn [bind]. rewrite Q3, D3.
  exists d3. split; auto. split; auto. split.
  - intros x y Hx Hy. rewrite Gd by exact Bc. rewrite H6 by auto. rewrite M5 by lia. unfold MatmulProofs.mmul.
    match goal with |- MatmulSpec.sumn _ _ ?F _ = _ => set (FF := F) end.
    assert (EP : sumn FF P = sumn FF (Z + (P - Z))) by (f_equal; lia). rewrite EP.
    rewrite (sumn_split zero one add mul sub opp Rth).
    rewrite (sumn_ext zero add (fun i => FF (Z + i)) (fun _ => zero) (P - Z)); unfold FF.
    + rewrite (sumn_zero zero one add mul sub opp Rth). rewrite (sumn_ext zero add _ (fun z => mul (get m (padd a (z + Z * y))) (get m (padd b (x + X * z)))) Z); [ring|].
      intros z Hz. cbn beta. rewrite MA, MB by lia.
      destruct (Nat.ltb_spec z Z); [|lia]. destruct (Nat.ltb_spec y Y); [|lia]. destruct (Nat.ltb_spec x X); [|lia]. reflexivity.
    + intros i Hi. cbn beta. rewrite MA by lia. destruct (Nat.ltb_spec (Z + i) Z); [lia|]. cbn [andb]. ring.
  - intros p Hv Hn. pose proof (valid_block m p Hv) as Bp. rewrite Gd by auto. rewrite F6.
    + rewrite F5; [now apply FR4|apply (valid_lay mC); auto; now apply GC|].
      intros [[j [_ C]]|[[j [_ C]]|[j [_ C]]]]; apply (f_equal fst) in C; unfold padd in C; cbn in C; lia.
    + intros x y Hx Hy C. apply Hn. subst p. apply inr_padd. now apply idx_lt.
Qed.

End R2.

Section R3.
Context {T : Type} (zero : T) (add mul sub : T -> T -> T).
Notation get := (get zero).
Notation sumn := (sumn zero add).

Definition strassen_one_correct (fresh : nat -> nat -> T) (thr : nat) : Prop :=
  forall c a b X Y Z P m,
  X <= P -> Y <= P -> Z <= P -> padded thr P -> 0 < X -> 0 < Y -> 0 < Z ->
  rvalid m c (X * Y) -> rvalid m a (Z * Y) -> rvalid m b (X * Z) ->
  exists m', matmul_strassen_one zero add sub mul fresh thr c a b X Y Z P m = Ok m' /\ ext m m' /\
    (forall x y, x < X -> y < Y -> get m' (padd c (x + X * y)) =
       sumn (fun z => mul (get m (padd a (z + Z * y))) (get m (padd b (x + X * z)))) Z) /\
    (forall p, valid m p -> ~ inr c (X * Y) p -> get m' p = get m p).

Lemma fwd_ok (fresh : nat -> nat -> T) use thr al bl dest sa sb m :
  0 < thr -> (use = true -> strassen_one_correct fresh thr) -> defined al -> defined bl ->
  let X := nth 0 bl 1 in let Y := nth 1 al 1 in let Z := nth 0 al 1 in let B := prod (skipn 2 al) in
  rvalid m dest (B * (X * Y)) -> rvalid m sa (B * (Z * Y)) -> rvalid m sb (B * (X * Z)) ->
  apart dest (B * (X * Y)) sa (B * (Z * Y)) -> apart dest (B * (X * Y)) sb (B * (X * Z)) ->
  exists m', matmul_fwd zero add sub mul fresh use thr al bl dest sa sb m = Ok m' /\ ext m m' /\
    (forall i x y, i < B -> x < X -> y < Y -> get m' (padd dest (i * (X * Y) + (x + X * y))) =
       sumn (fun z => mul (get m (padd sa (i * (Z * Y) + (z + Z * y)))) (get m (padd sb (i * (X * Z) + (x + X * z))))) Z) /\
    (forall p, valid m p -> ~ inr dest (B * (X * Y)) p -> get m' p = get m p).
Proof.
  intros Ht Hst Da Db X Y Z B Vd Va Vb Dda Ddb. unfold matmul_fwd.
  assert (La : 0 < length al) by (destruct Da as [Da _]; destruct al; cbn; [congruence|lia]).
  assert (Lb : 0 < length bl) by (destruct Db as [Db _]; destruct bl; cbn; [congruence|lia]).
  assert (PZ : 0 < Z). { unfold Z. destruct Da as [_ Da]. destruct al; cbn in *; [lia|]. now inversion Da. }
  assert (PX : 0 < X). { unfold X. destruct Db as [_ Db]. destruct bl; cbn in *; [lia|]. now inversion Db. }
  assert (PY : 0 < Y). { unfold Y. destruct Da as [_ Da]. destruct al as [|d0 [|d1 l]]; cbn in *; try lia. inversion Da as [|? ? ? Da']; inversion Da'; auto. }
  rewrite (rd_nth al 0 1) by auto. cbn [bind].
  assert (E1 : (if length al <? 2 then Ok 1 else rd al 1) = Ok Y).
  { unfold Y. destruct (Nat.ltb_spec (length al) 2).
    - rewrite nth_overflow by lia. reflexivity.
    - rewrite (rd_nth al 1 1) by lia. reflexivity. }
  rewrite E1. cbn [bind]. rewrite (rd_nth bl 0 1) by auto. cbn [bind]. fold X Z.
  destruct (Nat.eqb_spec (Z * Y) 0) as [C|_]; [nia|].
  assert (EB : n_elems al / (Z * Y) = B).
  { rewrite n_elems_prod by apply Da.
    assert (prod al = B * (Z * Y)) as ->.
    { unfold B, Z, Y. destruct al as [|d0 [|d1 l]]; cbn [length] in La; [lia| |]; cbn [nth skipn prod fold_right]; lia. }
    apply Nat.div_mul. nia. }
  rewrite EB.
  destruct (min_pad_ok thr (Nat.max (Nat.max X Y) Z) Ht) as [PG [PP _]].
  set (P := min_pad thr (Nat.max (Nat.max X Y) Z)) in *.
  set (val := fun i x y => sumn (fun z => mul (get m (padd sa (i * (Z * Y) + (z + Z * y)))) (get m (padd sb (i * (X * Z) + (x + X * z))))) Z).
  match goal with |- context [for_ B ?body m] =>
    destruct (for_inv (fun k s => ext m s /\
      (forall i x y, i < k -> x < X -> y < Y -> get s (padd dest (i * (X * Y) + (x + X * y))) = val i x y) /\
      (forall p, valid m p -> ~ inr dest (k * (X * Y)) p -> get s p = get m p)) body B m) as [m' [E [Ex [H1 H2]]]] end.
  - split; [now apply ext_refl_lay|]. split; [intros; lia|auto].
  - intros k s Hk [Ex [H1 H2]].
    assert (KB1 : k * (X * Y) + X * Y <= B * (X * Y)) by (replace (k * (X * Y) + X * Y) with ((k + 1) * (X * Y)) by lia; apply Nat.mul_le_mono_r; lia).
    assert (KB2 : k * (Z * Y) + Z * Y <= B * (Z * Y)) by (replace (k * (Z * Y) + Z * Y) with ((k + 1) * (Z * Y)) by lia; apply Nat.mul_le_mono_r; lia).
    assert (KB3 : k * (X * Z) + X * Z <= B * (X * Z)) by (replace (k * (X * Z) + X * Z) with ((k + 1) * (X * Z)) by lia; apply Nat.mul_le_mono_r; lia).
    assert (V1 : rvalid s (padd dest (k * (X * Y))) (X * Y)) by (apply (rvalid_ext m); auto; now apply (rvalid_sub m dest (B * (X * Y)))).
    assert (V2 : rvalid s (padd sa (k * (Z * Y))) (Z * Y)) by (apply (rvalid_ext m); auto; now apply (rvalid_sub m sa (B * (Z * Y)))).
    assert (V3 : rvalid s (padd sb (k * (X * Z))) (X * Z)) by (apply (rvalid_ext m); auto; now apply (rvalid_sub m sb (B * (X * Z)))).
    assert (Step : exists s', (if use && (thr <? P) then
         matmul_strassen_one zero add sub mul fresh thr (padd dest (k * (X * Y))) (padd sa (k * (Z * Y))) (padd sb (k * (X * Z))) X Y Z P s
       else cubic_mul zero add mul (padd dest (k * (X * Y))) (padd sa (k * (Z * Y))) (padd sb (k * (X * Z))) X Y Z Z 1 1 X s) = Ok s' /\ ext s s' /\
       (forall x y, x < X -> y < Y -> get s' (padd (padd dest (k * (X * Y))) (x + X * y)) =
         sumn (fun z => mul (get s (padd (padd sa (k * (Z * Y))) (z + Z * y))) (get s (padd (padd sb (k * (X * Z))) (x + X * z)))) Z) /\
       (forall p, valid s p -> ~ inr (padd dest (k * (X * Y))) (X * Y) p -> get s' p = get s p)).
    { destruct (use && (thr <? P)) eqn:Eu.
      - apply andb_true_iff in Eu. destruct Eu as [Eu _]. apply (Hst Eu); auto; lia.
      - destruct (cubic_ok zero add mul (padd dest (k * (X * Y))) (padd sa (k * (Z * Y))) (padd sb (k * (X * Z))) X Y Z s) as [s' [E [L [G1 G2]]]]; auto.
        + now apply (apart_sub dest (B * (X * Y)) sa (B * (Z * Y))).
        + now apply (apart_sub dest (B * (X * Y)) sb (B * (X * Z))).
        + exists s'. split; auto. split; [now apply ext_refl_lay|]. split; auto. }
    destruct Step as [s' [E' [Ex' [G1 G2]]]]. exists s'. split; [exact E'|].
    split; [eapply ext_trans; eassumption|]. split.
    + intros i x y Hi Hx Hy. pose proof (idx_lt x y X Y Hx Hy) as Hl.
      destruct (Nat.eq_dec i k) as [->|Hne].
      * rewrite <- padd_padd. rewrite G1 by auto. unfold val. apply sumn_ext. intros z Hz.
        pose proof (idx_lt z y Z Y Hz Hy) as Hl2. pose proof (idx_lt x z X Z Hx Hz) as Hl3.
        rewrite !padd_padd. f_equal.
        -- apply H2; [apply Va; lia|]. intros [j [Hj C]]. symmetry in C. revert C. apply Dda; lia.
        -- apply H2; [apply Vb; lia|]. intros [j [Hj C]]. symmetry in C. revert C. apply Ddb; lia.
      * assert (Hb : i * (X * Y) + X * Y <= k * (X * Y)) by (replace (i * (X * Y) + X * Y) with ((i + 1) * (X * Y)) by lia; apply Nat.mul_le_mono_r; lia).
        rewrite G2; [apply H1; auto; lia| |].
        -- apply (valid_ext m); auto. apply Vd. lia.
        -- intros [j [Hj C]]. rewrite padd_padd in C. apply padd_inj in C. lia.
    + intros p Vp Np. rewrite G2; [apply H2; auto| |].
      * intros [j [Hj C]]. apply Np. exists j. split; auto. lia.
      * now apply (valid_ext m).
      * intros [j [Hj C]]. apply Np. exists (k * (X * Y) + j). split; [lia|]. now rewrite <- padd_padd.
  - exists m'. split; [exact E|]. split; auto.
Qed.

(** three separate buffers in, three separate buffers out: everything else was freed *)
Lemma fwd_buffers (fresh : nat -> nat -> T) use thr al bl (dest a b : list T) :
  0 < thr -> (use = true -> strassen_one_correct fresh thr) -> defined al -> defined bl ->
  let X := nth 0 bl 1 in let Y := nth 1 al 1 in let Z := nth 0 al 1 in let B := prod (skipn 2 al) in
  length dest = B * (X * Y) -> length a = B * (Z * Y) -> length b = B * (X * Z) ->
  exists dest' k, matmul_fwd zero add sub mul fresh use thr al bl (0, 0) (1, 0) (2, 0) [dest; a; b] = Ok (dest' :: a :: b :: repeat [] k) /\
    length dest' = length dest /\
    (forall i x y, i < B -> x < X -> y < Y -> nth_error dest' (i * (X * Y) + (x + X * y)) =
       Some (sumn (fun z => mul (nth (i * (Z * Y) + (z + Z * y)) a zero) (nth (i * (X * Z) + (x + X * z)) b zero)) Z)).
Proof.
  intros Ht Hst Da Db X Y Z B Ld La Lb.
  destruct (fwd_ok fresh use thr al bl (0, 0) (1, 0) (2, 0) [dest; a; b]) as [m' [E [[k Ex] [H1 H2]]]]; auto.
  { intros i Hi. unfold valid, padd. cbn. fold X Y B in Hi. lia. }
  { intros i Hi. unfold valid, padd. cbn. fold Z Y B in Hi. lia. }
  { intros i Hi. unfold valid, padd. cbn. fold X Z B in Hi. lia. }
  { now apply apart_block. }
  { now apply apart_block. }
  fold X Y Z B in H1, H2.
  assert (Lm : length m' = 3 + k). { apply (f_equal (@length nat)) in Ex. unfold lay in Ex. rewrite app_length, !map_length, repeat_length in Ex. exact Ex. }
  destruct m' as [|d' [|a' [|b' rest]]]; cbn [length] in Lm; try lia.
  unfold lay in Ex. cbn [map app] in Ex. injection Ex as E1 E2 E3 E4.
  assert (Hrest : rest = repeat [] k).
  { assert (Lr : length rest = k) by lia. clear -E4 Lr. revert k E4 Lr. induction rest as [|r rest IH]; intros [|k] E4 Lr; cbn in *; try lia; auto.
    injection E4 as E5 E6. f_equal; [now apply length_zero_iff_nil|]. apply IH; auto. }
  assert (Ha : a' = a).
  { apply nth_ext with (d := zero) (d' := zero); auto. intros i Hi. specialize (H2 (1, i)). unfold MemProofs.get in H2. cbn [fst snd nth] in H2.
    apply H2; [unfold valid; cbn; lia|]. intros [j [_ C]]. unfold padd in C. cbn in C. discriminate. }
  assert (Hb : b' = b).
  { apply nth_ext with (d := zero) (d' := zero); auto. intros i Hi. specialize (H2 (2, i)). unfold MemProofs.get in H2. cbn [fst snd nth] in H2.
    apply H2; [unfold valid; cbn; lia|]. intros [j [_ C]]. unfold padd in C. cbn in C. discriminate. }
  exists d', k. split; [rewrite Ha, Hb, Hrest in E; exact E|]. split; auto.
  intros i x y Hi Hx Hy. specialize (H1 i x y Hi Hx Hy). unfold MemProofs.get, padd in H1. cbn [fst snd nth Nat.add] in H1.
  rewrite <- H1. apply nth_error_nth_lt. rewrite E1, Ld. pose proof (idx_lt x y X Y Hx Hy).
  assert (i * (X * Y) + X * Y <= B * (X * Y)) by (replace (i * (X * Y) + X * Y) with ((i + 1) * (X * Y)) by lia; apply Nat.mul_le_mono_r; lia).
  lia.
Qed.

End R3.

(** ---- shaper ---- *)

Lemma forallb_combine_eq : forall l1 l2 : list nat, length l1 = length l2 ->
  forallb (fun p => fst p =? snd p) (combine l1 l2) = true <-> l1 = l2.
Proof.
  induction l1 as [|x l1 IH]; intros [|y l2] L; cbn in *; try discriminate; [tauto|].
  rewrite andb_true_iff, Nat.eqb_eq, IH by lia. split; [intros [-> ->]; auto|intros E; injection E; auto].
Qed.

Lemma forallb_ones l : forallb (fun e => e =? 1) l = true <-> l = repeat 1 (length l).
Proof.
  induction l as [|x l IH]; cbn; [tauto|]. rewrite andb_true_iff, Nat.eqb_eq, IH. split.
  - intros [-> ->]. now rewrite repeat_length.
  - intros E. injection E as -> E. now split.
Qed.

Lemma shaper_cases al bl : defined al -> defined bl ->
  (2 < Nat.min (length al) (length bl) -> nth 0 al 1 = nth 1 bl 1 ->
     forall beyond, same_batch al bl beyond -> matmul_shaper al bl = Ok (nth 0 bl 1 :: nth 1 al 1 :: beyond)) /\
  (Nat.min (length al) (length bl) <= 2 -> nth 0 al 1 = nth 1 bl 1 -> matmul_shaper al bl = Ok [nth 0 bl 1; nth 1 al 1]) /\
  (nth 0 al 1 <> nth 1 bl 1 \/ (2 < Nat.min (length al) (length bl) /\ ~ exists beyond, same_batch al bl beyond) -> matmul_shaper al bl = Throw).
Proof.
  intros Da Db.
  assert (La : 0 < length al) by (destruct Da as [Da _]; destruct al; cbn; [congruence|lia]).
  assert (Lb : 0 < length bl) by (destruct Db as [Db _]; destruct bl; cbn; [congruence|lia]).
  assert (D0 : forall l, 0 < length l -> (if 0 <? length l then rd l 0 else Ok 0) = Ok (nth 0 l 1)).
  { intros l Hl. destruct (Nat.ltb_spec 0 (length l)); [|lia]. now apply rd_nth. }
  assert (D1 : forall l, (if 1 <? length l then rd l 1 else Ok 1) = Ok (nth 1 l 1)).
  { intros l. destruct (Nat.ltb_spec 1 (length l)); [now apply rd_nth|]. now rewrite nth_overflow. }
  unfold matmul_shaper. rewrite !D0, !D1 by auto. cbn [bind].
  set (mn := Nat.min (length al) (length bl)).
  assert (SB : 2 < mn -> forall beyond, same_batch al bl beyond <->
     (skipn 2 (firstn mn al) = beyond /\ skipn 2 (firstn mn bl) = beyond /\
      forallb (fun e => e =? 1) (skipn mn (if length bl <? length al then al else bl)) = true)).
  { intros Hmn beyond. rewrite forallb_ones. split.
    - intros [k [j [E1 [E2 E3]]]].
      assert (L1 : length al = 2 + (length beyond + k)). { pose proof (f_equal (@length nat) E1) as L. rewrite skipn_length, app_length, repeat_length in L. lia. }
      assert (L2 : length bl = 2 + (length beyond + j)). { pose proof (f_equal (@length nat) E2) as L. rewrite skipn_length, app_length, repeat_length in L. lia. }
      assert (Hm : mn = 2 + length beyond) by (unfold mn; lia).
      assert (S1 : forall l r, 2 <= length l -> skipn 2 l = beyond ++ r -> skipn 2 (firstn mn l) = beyond /\ skipn mn l = r).
      { intros l r Hl E. destruct l as [|x0 [|x1 l]]; cbn in Hl; try lia. cbn [skipn] in E. subst l. rewrite Hm. cbn. split.
        - rewrite firstn_app, Nat.sub_diag, firstn_all. cbn. now rewrite app_nil_r.
        - rewrite skipn_app, Nat.sub_diag, skipn_all. reflexivity. }
      destruct (S1 al (repeat 1 k)) as [A1 A2]; auto; [lia|]. destruct (S1 bl (repeat 1 j)) as [B1 B2]; auto; [lia|].
      split; auto. split; auto. destruct (length bl <? length al); [rewrite A2|rewrite B2]; now rewrite repeat_length.
    - intros [E1 [E2 E3]].
      assert (S1 : forall l : list nat, mn <= length l -> skipn 2 l = skipn 2 (firstn mn l) ++ skipn mn l).
      { intros l Hl. rewrite <- (firstn_skipn mn l) at 1. rewrite skipn_app. f_equal. rewrite firstn_length_le by lia.
        replace (2 - mn) with 0 by lia. reflexivity. }
      destruct (Nat.ltb_spec (length bl) (length al)).
      + exists (length al - mn), 0. rewrite (S1 al) by (unfold mn; lia). rewrite (S1 bl) by (unfold mn; lia). rewrite E1, E2.
        split; [|split; auto].
        * f_equal. rewrite E3. f_equal. apply skipn_length.
        * f_equal. rewrite skipn_all2 by (unfold mn; lia). reflexivity.
      + exists 0, (length bl - mn). rewrite (S1 al) by (unfold mn; lia). rewrite (S1 bl) by (unfold mn; lia). rewrite E1, E2.
        split; [|split; auto].
        * f_equal. rewrite skipn_all2 by (unfold mn; lia). reflexivity.
        * f_equal. rewrite E3. f_equal. apply skipn_length. }
  assert (LE : length (skipn 2 (firstn mn al)) = length (skipn 2 (firstn mn bl))).
  { rewrite !skipn_length, !firstn_length. unfold mn. lia. }
  split; [|split].
  - intros Hm Hin beyond Hb. apply (SB Hm) in Hb. destruct Hb as [B1 [B2 B3]].
    destruct (Nat.ltb_spec 2 mn); [|lia]. rewrite (proj2 (forallb_combine_eq _ _ LE)) by congruence. rewrite B3. cbn [bind].
    rewrite Hin, Nat.eqb_refl. rewrite B1. reflexivity.
  - intros Hm Hin. destruct (Nat.ltb_spec 2 mn); [lia|]. cbn [bind]. rewrite Hin, Nat.eqb_refl. reflexivity.
  - intros H. destruct (Nat.ltb_spec 2 mn) as [Hm|Hm].
    + destruct (forallb _ (combine _ _)) eqn:F1; [|reflexivity]. destruct (forallb _ (skipn mn _)) eqn:F2; [|reflexivity]. cbn [bind].
      destruct H as [H|[_ H]].
      * destruct (Nat.eqb_spec (nth 0 al 1) (nth 1 bl 1)); [contradiction|reflexivity].
      * exfalso. apply H. exists (skipn 2 (firstn mn al)). apply (SB Hm). split; auto. split; auto.
        symmetry. now apply (forallb_combine_eq _ _ LE).
    + cbn [bind]. destruct H as [H|[H _]]; [|lia].
      destruct (Nat.eqb_spec (nth 0 al 1) (nth 1 bl 1)); [contradiction|reflexivity].
Qed.
