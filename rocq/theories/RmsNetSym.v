(** Computation of a training call with RMSprop on a small net, over any numbers; used by the
    example of RmsNetLaws.v. *)
From Coq Require Import String Lia.
From Verif Require Import Common ShapeModel ElemModel NumSpec GradModel MlpModel EvalModel EvalSpec EvalProofs UpdaterModel TrainModel TrainSpec TrainSymProofs CallSpec RmsNetModel.

Section Symbolic.
Context {T : Type} (z0 o1 t2 : T) (add sub mul div : T -> T -> T) (neg f1 f2 f3 f4 f5 f6 f7 f8 : T -> T) (pw : T -> T -> T) (eqb ltb : T -> T -> bool).
Notation N := (@Build_num T z0 o1 t2 add sub mul div neg f1 f2 f3 f4 f5 f6 f7 f8 pw eqb ltb).
Context (fresh : nat -> T) (use : bool).
Context (glr gd g1d gsq gsqrt geps : T -> T) (gadd gdiv : T -> T -> T).
Definition smap (f : T -> T) (t : tens T) : tens T := (fst t, map f (snd t)).
Definition smap2 (f : T -> T -> T) (a b : tens T) : option (tens T) :=
  if (length (snd b) =? length (snd a)) then Some (fst a, map (fun p => f (fst p) (snd p)) (combine (snd a) (snd b))) else None.
Definition sym_arith : arith (tens T) :=
  mkArith (tens T) (smap glr) (smap gd) (smap g1d) (smap gsq) (smap gsqrt) (smap geps) (smap2 gadd) (smap2 gdiv) (smap2 sub).
Definition observe4 (o : out (tens T) unit) := match o with Done s' _ => Some (val s' 0, val s' 1, val s' 18, val s' 27) | _ => None end.
Lemma rms_small_runs w b lr x y : eqb (add z0 (mul x w)) (add z0 (mul x w)) = true -> exists s1 s2 s s' rest1 rest,
  let one1 := ([1; 1], [o1]) in let one2 := ([1], [o1]) in
  run (fun _ _ => true) audience least einit (small_ops N fresh use w b lr) = Done s1 tt /\
  run (fun _ _ => true) audience least s1 (rms_ops sym_arith 18 13 one1) = Done s2 tt /\
  run (fun _ _ => true) audience least s2 (rms_ops sym_arith 27 16 one2) = Done s tt /\
  net_train_rms (fun _ _ => true) audience least sym_arith s 2 3 7 [(18, 0); (27, 1)] ([1; 1], [x]) ([1; 1], [y]) = Done s' tt /\
  nodes s1 = small_nodes z0 o1 t2 add sub mul div neg f1 f2 f3 f4 f5 f6 f7 f8 pw eqb ltb fresh use lr /\ nodes s2 = small_nodes z0 o1 t2 add sub mul div neg f1 f2 f3 f4 f5 f6 f7 f8 pw eqb ltb fresh use lr ++ rest1 /\ length rest1 = 9 /\
  nodes s = small_nodes z0 o1 t2 add sub mul div neg f1 f2 f3 f4 f5 f6 f7 f8 pw eqb ltb fresh use lr ++ rest /\ length rest = 18 /\
  val s 0 = Some ([1; 1], [w]) /\ val s 1 = Some ([1], [b]) /\
  let diff := sub y (add (add z0 (mul x w)) b) in
  let dw := add z0 (mul x (mul (mul t2 (neg o1)) diff)) in let db := mul (mul t2 (neg o1)) diff in
  let mw := gadd (gd o1) (g1d (gsq dw)) in let mb := gadd (gd o1) (g1d (gsq db)) in
  val s' 0 = Some ([1; 1], [sub w (gdiv (glr dw) (geps (gsqrt mw)))]) /\
  val s' 1 = Some ([1], [sub b (gdiv (glr db) (geps (gsqrt mb)))]) /\
  val s' 18 = Some ([1; 1], [mw]) /\ val s' 27 = Some ([1], [mb]).
Proof.
  intros He.
  assert (H : exists s1 s2 s rest1 rest,
    run (fun _ _ => true) audience least einit (small_ops N fresh use w b lr) = Done s1 tt /\
    run (fun _ _ => true) audience least s1 (rms_ops sym_arith 18 13 ([1; 1], [o1])) = Done s2 tt /\
    run (fun _ _ => true) audience least s2 (rms_ops sym_arith 27 16 ([1], [o1])) = Done s tt /\
    nodes s1 = small_nodes z0 o1 t2 add sub mul div neg f1 f2 f3 f4 f5 f6 f7 f8 pw eqb ltb fresh use lr /\ nodes s2 = small_nodes z0 o1 t2 add sub mul div neg f1 f2 f3 f4 f5 f6 f7 f8 pw eqb ltb fresh use lr ++ rest1 /\ length rest1 = 9 /\
    nodes s = small_nodes z0 o1 t2 add sub mul div neg f1 f2 f3 f4 f5 f6 f7 f8 pw eqb ltb fresh use lr ++ rest /\ length rest = 18 /\
    val s 0 = Some ([1; 1], [w]) /\ val s 1 = Some ([1], [b]) /\
    observe4 (net_train_rms (fun _ _ => true) audience least sym_arith s 2 3 7 [(18, 0); (27, 1)] ([1; 1], [x]) ([1; 1], [y])) =
    (let diff := sub y (add (add z0 (mul x w)) b) in
     let dw := add z0 (mul x (mul (mul t2 (neg o1)) diff)) in let db := mul (mul t2 (neg o1)) diff in
     let mw := gadd (gd o1) (g1d (gsq dw)) in let mb := gadd (gd o1) (g1d (gsq db)) in
     Some (Some ([1; 1], [sub w (gdiv (glr dw) (geps (gsqrt mw)))]), Some ([1], [sub b (gdiv (glr db) (geps (gsqrt mb)))]),
       Some ([1; 1], [mw]), Some ([1], [mb])))).
  { do 5 eexists. split; [lazy -[op1 op2 n_two n_mul n_neg n_one]; reflexivity|]. split; [lazy -[op1 op2 n_two n_mul n_neg n_one]; reflexivity|].
    split; [lazy -[op1 op2 n_two n_mul n_neg n_one]; reflexivity|].
    split; [reflexivity|]. split; [cbn [nodes small_nodes app]; reflexivity|]. split; [reflexivity|]. split; [cbn [nodes small_nodes app]; reflexivity|]. split; [reflexivity|].
    split; [reflexivity|]. split; [reflexivity|]. destruct use; lazy; rewrite He; reflexivity. }
  destruct H as (s1 & s2 & s & rest1 & rest & R1 & R2 & R3 & Q1 & Q2 & Q3 & Q4 & Q5 & V0 & V1 & Ho). cbv zeta in Ho.
  match type of Ho with observe4 ?o = _ => remember o as o' eqn:E end. symmetry in E. destruct o' as [s' []|s'|]; [|discriminate Ho|discriminate Ho]. cbn [observe4] in Ho. injection Ho as O1 O2 O3 O4.
  exists s1, s2, s, s', rest1, rest. cbv zeta. repeat match goal with |- _ /\ _ => split; [assumption|] end. assumption.
Qed.

Ltac opn Hn := eexists; rewrite Hn; reflexivity.
Ltac un Hn a := do 2 eexists; split; [opn Hn|]; split; [intros; reflexivity|].
Ltac bi Hn := do 3 eexists; split; [opn Hn|]; split; [intros; reflexivity|]; split.
Ltac va Hn := split; [reflexivity|]; unfold leaf; rewrite Hn; reflexivity.
Lemma rms_small_shows s lr rest : nodes s = small_nodes z0 o1 t2 add sub mul div neg f1 f2 f3 f4 f5 f6 f7 f8 pw eqb ltb fresh use lr ++ rest ->
  shows N fresh use small_loc s 13 (small_dw N) /\ shows N fresh use small_loc s 16 (small_db N) /\ linked s 13 7 /\ linked s 16 7.
Proof.
  intros Hn.
  assert (M : shows N fresh use small_loc s 4 (EMat false false (EVar 2) (EVar 0))) by (bi Hn; va Hn).
  assert (D : shows N fresh use small_loc s 6 small_diff) by (bi Hn; [va Hn|]; bi Hn; [exact M|va Hn]).
  assert (K : forall a b args f args' f', operation s a args f -> operation s b args' f' -> In b args -> linked s a b) by (intros; apply link_sym; eapply link_arg; eauto).
  assert (L76 : linked s 6 7) by (apply link_sym; eapply K; [opn Hn|opn Hn|cbn; tauto]).
  split; [|split; [|split]].
  - bi Hn.
    + un Hn 2. va Hn.
    + bi Hn; [|exact D]. un Hn 9. un Hn 8. bi Hn; exact M.
  - un Hn 15. un Hn 6. exact D.
  - apply link_trans with 11; [eapply K; [opn Hn|opn Hn|cbn; tauto]|]. apply link_trans with 6; [eapply K; [opn Hn|opn Hn|cbn; tauto]|exact L76].
  - apply link_trans with 15; [eapply K; [opn Hn|opn Hn|cbn; tauto]|]. apply link_trans with 6; [eapply K; [opn Hn|opn Hn|cbn; tauto]|exact L76].
Qed.
End Symbolic.
