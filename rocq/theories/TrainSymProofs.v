(** Computation of a training step on a small net, over any numbers; used by the example of TrainLaws.v. *)
From Coq Require Import String Lia.
From Verif Require Import Common ShapeModel ElemModel NumSpec GradModel MlpModel EvalModel EvalSpec UpdaterModel TrainModel TrainSpec.

(** a node that applies an operation *)
Definition op1 {T} (N : num T) fresh use (k : @expr T -> @expr T) : list (tens T) -> option (tens T) :=
  fun l => match l with [x] => result_of N fresh use (k (EConst x)) | _ => None end.
Definition op2 {T} (N : num T) fresh use (k : @expr T -> @expr T -> @expr T) : list (tens T) -> option (tens T) :=
  fun l => match l with [x; y] => result_of N fresh use (k (EConst x) (EConst y)) | _ => None end.

(** the net of one input, one output and no activation: weight 0, bias 1, placeholders 2 and
    3; 4 product, 5 output, 6 difference, 7 error; 13 and 16 the gradients; 14 and 17 the nodes
    of the updates *)
Definition small_ops {T} (N : num T) fresh use (w b lr : T) : list (eop (tens T)) :=
  let o1 := op1 N fresh use in let o2 := op2 N fresh use in
  [ELeaf (Some ([1; 1], [w])); ELeaf (Some ([1], [b])); ELeaf None; ELeaf None;
   EOp [2; 0] (o2 (EMat false false)); EOp [4; 1] (o2 (EAxB 1)); EOp [3; 5] (o2 (EBin BSub)); EOp [6] (o1 (EUn (UPow (n_two N))));
   EOp [4; 4] (o2 EEq); EOp [8] (o1 (EUn UNeg)); EOp [9] (o1 (EUn (UMulL (n_two N)))); EOp [10; 6] (o2 (EBin BMul)); EOp [2] (o1 ETr);
   EOp [12; 11] (o2 (EMat true false)); EOp [13] (o1 (EUn (UMulR lr)));
   EOp [6] (o1 (EUn (UMulL (n_mul N (n_two N) (n_neg N (n_one N)))))); EOp [15] (o1 (ESumAx 1)); EOp [16] (o1 (EUn (UMulR lr)))].
Definition small_out {T} : @expr T := EAxB 1 (EMat false false (EVar 2) (EVar 0)) (EVar 1).
Definition small_diff {T} : @expr T := EBin BSub (EVar 3) small_out.
Definition small_error {T} (N : num T) : @expr T := EUn (UPow (n_two N)) small_diff.
Definition small_dw {T} (N : num T) : @expr T :=
  EMat true false (ETr (EVar 2)) (EBin BMul (EUn (UMulL (n_two N)) (EUn UNeg (EEq (EMat false false (EVar 2) (EVar 0)) (EMat false false (EVar 2) (EVar 0))))) small_diff).
Definition small_db {T} (N : num T) : @expr T := ESumAx 1 (EUn (UMulL (n_mul N (n_two N) (n_neg N (n_one N)))) small_diff).

Section Symbolic.
Context {T : Type} (z0 o1 t2 : T) (add sub mul div : T -> T -> T) (neg f1 f2 f3 f4 f5 f6 f7 f8 : T -> T) (pw : T -> T -> T) (eqb ltb : T -> T -> bool).
Notation N := (@Build_num T z0 o1 t2 add sub mul div neg f1 f2 f3 f4 f5 f6 f7 f8 pw eqb ltb).
Context (fresh : nat -> T) (use : bool).
Definition tsub (a b : tens T) : option (tens T) :=
  if (length (snd b) =? length (snd a)) then Some (fst a, map (fun p => sub (fst p) (snd p)) (combine (snd a) (snd b))) else None.
Definition small_arith : arith (tens T) :=
  mkArith (tens T) (fun x => x) (fun x => x) (fun x => x) (fun x => x) (fun x => x) (fun x => x) (fun _ _ => None) (fun _ _ => None) tsub.
Definition small_nodes (lr : T) : list (enode (tens T)) :=
    [NLeaf; NLeaf; NLeaf; NLeaf; NOp [2; 0] (op2 N fresh use (EMat false false)) 1; NOp [4; 1] (op2 N fresh use (EAxB 1)) 2; NOp [3; 5] (op2 N fresh use (EBin BSub)) 3; NOp [6] (op1 N fresh use (EUn (UPow t2))) 4;
      NOp [4; 4] (op2 N fresh use EEq) 2; NOp [8] (op1 N fresh use (EUn UNeg)) 3; NOp [9] (op1 N fresh use (EUn (UMulL t2))) 4; NOp [10; 6] (op2 N fresh use (EBin BMul)) 5; NOp [2] (op1 N fresh use ETr) 1;
      NOp [12; 11] (op2 N fresh use (EMat true false)) 6; NOp [13] (op1 N fresh use (EUn (UMulR lr))) 7;
      NOp [6] (op1 N fresh use (EUn (UMulL (mul t2 (neg o1))))) 4; NOp [15] (op1 N fresh use (ESumAx 1)) 5; NOp [16] (op1 N fresh use (EUn (UMulR lr))) 6].

Definition observe (o : out (tens T) unit) := match o with Done s' _ => Some (val s' 0, val s' 1) | _ => None end.
Lemma small_runs w b lr x y : eqb (add z0 (mul x w)) (add z0 (mul x w)) = true -> exists s s',
  run (fun _ _ => true) audience least einit (small_ops N fresh use w b lr) = Done s tt /\
  net_train (fun _ _ => true) audience least small_arith s 2 3 7 [(0, 14); (1, 17)] ([1; 1], [x]) ([1; 1], [y]) = Done s' tt /\
  nodes s = small_nodes lr /\
  val s 0 = Some ([1; 1], [w]) /\ val s 1 = Some ([1], [b]) /\
  let diff := sub y (add (add z0 (mul x w)) b) in
  val s' 0 = Some ([1; 1], [sub w (mul (add z0 (mul x (mul (mul t2 (neg o1)) diff))) lr)]) /\
  val s' 1 = Some ([1], [sub b (mul (mul (mul t2 (neg o1)) diff) lr)]).
Proof.
  intros He.
  assert (H : exists s, run (fun _ _ => true) audience least einit (small_ops N fresh use w b lr) = Done s tt /\ nodes s = small_nodes lr /\
     observe (net_train (fun _ _ => true) audience least small_arith s 2 3 7 [(0, 14); (1, 17)] ([1; 1], [x]) ([1; 1], [y])) =
     (let diff := sub y (add (add z0 (mul x w)) b) in
      Some (Some ([1; 1], [sub w (mul (add z0 (mul x (mul (mul t2 (neg o1)) diff))) lr)]), Some ([1], [sub b (mul (mul (mul t2 (neg o1)) diff) lr)]))) /\
     val s 0 = Some ([1; 1], [w]) /\ val s 1 = Some ([1], [b])).
  { eexists. split; [lazy -[op1 op2 n_two n_mul n_neg n_one]; reflexivity|]. split; [reflexivity|]. split; [|split; reflexivity].
    destruct use; lazy; rewrite He; reflexivity. }
  destruct H as (s & R & Hn & Ho & V0 & V1). cbv zeta in Ho.
  match type of Ho with observe ?o = _ => remember o as o' eqn:E end. symmetry in E. destruct o' as [s' []|s'|]; [|discriminate Ho|discriminate Ho]. cbn [observe] in Ho. injection Ho as O1 O2.
  exists s, s'. split; [exact R|]. split; [exact E|]. split; [exact Hn|]. split; [exact V0|]. split; [exact V1|]. split; [exact O1|exact O2].
Qed.

Definition small_loc (v : nat) : nat := if v <? 4 then v else v + 100.
Ltac opn Hn := eexists; rewrite Hn; reflexivity.
Ltac un Hn a := do 2 eexists; split; [opn Hn|]; split; [intros; reflexivity|].
Ltac bi Hn := do 3 eexists; split; [opn Hn|]; split; [intros; reflexivity|]; split.
Ltac va Hn := split; [reflexivity|]; unfold leaf; rewrite Hn; reflexivity.
Lemma small_shows s lr : nodes s = small_nodes lr ->
  shows N fresh use small_loc s 14 (EUn (UMulR lr) (small_dw N)) /\ shows N fresh use small_loc s 17 (EUn (UMulR lr) (small_db N)) /\
  connected s 14 7 /\ connected s 17 7.
Proof.
  intros Hn.
  assert (M : shows N fresh use small_loc s 4 (EMat false false (EVar 2) (EVar 0))) by (bi Hn; va Hn).
  assert (D : shows N fresh use small_loc s 6 small_diff) by (bi Hn; [va Hn|]; bi Hn; [exact M|va Hn]).
  split; [|split].
  - un Hn 13. bi Hn.
    + un Hn 2. va Hn.
    + bi Hn; [|exact D]. un Hn 9. un Hn 8. bi Hn; exact M.
  - un Hn 16. un Hn 15. un Hn 6. exact D.
  - assert (U : forall v args f a b, operation s v args f -> In a args -> upstream s b a -> upstream s b v) by (intros; econstructor; eauto).
    split; exists 6; do 2 eexists; (split; [opn Hn|]); (split; [|eapply U; [opn Hn|left; reflexivity|constructor]]).
    + eapply U; [opn Hn|left; reflexivity|]. eapply U; [opn Hn|right; left; reflexivity|]. eapply U; [opn Hn|right; left; reflexivity|constructor].
    + eapply U; [opn Hn|left; reflexivity|]. eapply U; [opn Hn|left; reflexivity|]. eapply U; [opn Hn|left; reflexivity|constructor].
Qed.

Context (same : @expr T -> @expr T -> bool) (OK : forall a b, same a b = true -> a = b) (same_refl : forall a, same a a = true).
Context (z01 : eqb z0 o1 = false) (z10 : eqb o1 z0 = false) (zz : forall x, eqb x x = true) (z20 : eqb t2 z0 = false) (z21 : eqb t2 o1 = false).
Context (e1 : eqb z0 t2 = false) (e2 : eqb o1 t2 = false) (e3 : eqb (neg o1) t2 = false) (e4 : sub t2 o1 = o1) (e5 : z0 <> o1) (e6 : eqb z0 (neg o1) = false) (e7 : eqb o1 (neg o1) = false)
  (e8 : eqb z0 (mul t2 (neg o1)) = false) (e9 : eqb o1 (mul t2 (neg o1)) = false) (e10 : eqb (neg o1) (mul t2 (neg o1)) = false) (e11 : eqb (mul t2 (neg o1)) z0 = false).
Lemma same_no a b : a <> b -> same a b = false.
Proof. intros H. destruct (same a b) eqn:E; auto. apply OK in E. contradiction. Qed.
Ltac facts := rewrite ?e4, ?e1, ?e2, ?e3, ?e6, ?e7, ?e8, ?e9, ?e10, ?e11, ?z01, ?z10, ?zz, ?z20, ?z21, ?same_refl; repeat match goal with |- context [same ?a ?b] => rewrite (same_no a b) by (first [discriminate | congruence]) end.
Ltac steps := unfold derive, derive_of, jac_call; repeat progress (cbn [bind info has_leaf Nat.eqb orb andb fst snd inherit push_back push_front j_list j_uid j_term terminal app back_unary back_binary mk_binary mk_unary mk_neg fold_node cview_of const_is const_scalar one_elem n_elems jac_step fold_right is_zero_const mk_mat mk_tr mk_axb
  n_zero n_one n_two n_add n_sub n_mul n_div n_neg n_eqb fold_left Nat.mul Nat.add]; facts).

Lemma small_net (of_nat : nat -> T) : exists m st,
  mlp_new N of_nat 1 [(1, mk_id)] "net"%string [] = (m, st) /\ mlp_variables m = [0; 1] /\ m_nout m = Some 1 /\
  gd_error N same (CMlp m) 2 3 [1; 1] = Ok (small_error N) /\
  (exists v, deref st 0 = Ok v /\ v_shape v = [1; 1]) /\ (exists v, deref st 1 = Ok v /\ v_shape v = [1]).
Proof.
  do 2 eexists. split; [lazy; reflexivity|]. split; [reflexivity|]. split; [reflexivity|]. split.
  - unfold gd_error. cbn. rewrite (same_no (EVar 3)) by discriminate. cbn. rewrite same_refl. cbn. rewrite z20, z21. reflexivity.
  - split; eexists; (split; [reflexivity|reflexivity]).
Qed.
Lemma small_dw_ok env w b x y : env 0 = ([1; 1], [w]) -> env 1 = ([1], [b]) -> env 2 = ([1; 1], [x]) -> env 3 = ([1;1],[y]) ->
  derive N fresh use same env 0 (small_error N) = Ok (small_dw N).
Proof.
  intros H H0 H1 H2. unfold small_error, small_dw, small_diff, small_out. steps. unfold mk_axb. steps. unfold mk_mat. cbn [mk_tr]. steps. cbn [eval]; rewrite H, H0, H1, H2; destruct use; lazy; reflexivity.
Qed.
Lemma small_db_ok env w b x y : env 0 = ([1; 1], [w]) -> env 1 = ([1], [b]) -> env 2 = ([1; 1], [x]) -> env 3 = ([1;1],[y]) ->
  derive N fresh use same env 1 (small_error N) = Ok (small_db N).
Proof.
  intros H H0 H1 H2. unfold small_error, small_db, small_diff, small_out. steps. unfold mk_axb. steps.
  rewrite (same_no (EConst (const_scalar z0))) by (unfold const_scalar; congruence). cbn [bind map const_lambda n_neg]. steps. unfold const_is. cbn. steps. reflexivity.
Qed.
End Symbolic.
