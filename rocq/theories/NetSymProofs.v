(** Computations of gradients on small graphs, for the laws of NetLaws.v. *)
From Coq Require Import String Reals Lra Lia ClassicalDescription.
From Verif Require Import Common ShapeModel ShapeProofs ShapeSpec TransformSpec TransformModel TransformProofs TransformLaws MatmulSpec MatmulModel ElemModel ElemProofs NumSpec RealNum ElemLaws GradModel GradSpec GradProofs GradLaws MatrixSpec MatrixProofs MlpModel MlpProofs MlpLaws CopyLaws NetSpec NetProofs NetMlpProofs.

(** Computations of gradients on small graphs, over any numbers. *)
Section Symbolic.
Context {T : Type} (z0 o1 t2 : T) (add sub mul div : T -> T -> T) (neg f1 f2 f3 f4 f5 f6 f7 f8 : T -> T) (pw : T -> T -> T) (eqb ltb : T -> T -> bool).
Notation N := (@Build_num T z0 o1 t2 add sub mul div neg f1 f2 f3 f4 f5 f6 f7 f8 pw eqb ltb).
Context (fresh : nat -> T) (use : bool) (same : @expr T -> @expr T -> bool) (OK : forall a b, same a b = true -> a = b).
Context (same_mat : forall tA tB a b, same (EMat tA tB a b) (EMat tA tB a b) = true).
Context (z01 : eqb z0 o1 = false) (z10 : eqb o1 z0 = false) (zz : forall x, eqb x x = true) (z20 : eqb t2 z0 = false) (z21 : eqb t2 o1 = false).
Context (pw2 : forall x, pw x t2 = mul x x).
Local Open Scope nat_scope.
Lemma same_no a b : a <> b -> same a b = false.
Proof. intros H. destruct (same a b) eqn:E; auto. apply OK in E. contradiction. Qed.
Ltac facts := rewrite ?z01, ?z10, ?zz, ?z20, ?z21, ?same_mat; repeat match goal with |- context [same ?a ?b] => rewrite (same_no a b) by discriminate end.
Ltac steps := unfold derive, derive_of, jac_call; repeat progress (cbn [bind info has_leaf Nat.eqb orb andb fst snd inherit push_back push_front j_list j_uid j_term terminal app back_unary back_binary mk_binary mk_unary mk_neg fold_node cview_of const_is const_scalar one_elem n_elems jac_step fold_right is_zero_const mk_mat mk_tr mk_axb
  n_zero n_one n_two n_add n_sub n_mul n_div n_neg n_eqb fold_left Nat.mul Nat.add]; facts).
Ltac evals := repeat match goal with |- context [eval ?N ?f ?u ?env ?e] => let t := constr:(eval N f u env e) in let v := eval lazy in t in change t with v end.

Lemma sym_broadcast env : derive N fresh use same env 0 (ESum (EBin BMul (EVar 0) (EVar 1))) = Ok (EVar 1).
Proof. steps. reflexivity. Qed.
Lemma sym_broadcast_value env x a b : env 0 = ([1], [x]) -> env 1 = ([2], [a; b]) ->
  eval N fresh use env (ESum (EBin BMul (EVar 0) (EVar 1))) = Ok ([1], [add (mul x a) (mul x b)]).
Proof. intros H H0. cbn [eval]. rewrite H, H0. reflexivity. Qed.
Lemma sym_max env : derive N fresh use same env 0 (EMax (EVar 0)) = Ok (EConst ([1], [o1])).
Proof. reflexivity. Qed.
Lemma sym_max_value env a b : env 0 = ([2], [a; b]) -> eval N fresh use env (EMax (EVar 0)) = Ok ([1], [if ltb a b then b else a]).
Proof. intros H. cbn [eval]. rewrite H. reflexivity. Qed.
Lemma sym_bias env : exists Y, derive N fresh use same env 0 (ESum (EAxB 1 (EVar 1) (EVar 0))) = Ok Y /\ eval N fresh use env Y = Ok ([1], [o1]).
Proof. steps. unfold mk_axb. steps. exists (ESumAx 1 (EConst ([1], [o1]))). split; reflexivity. Qed.
Lemma sym_bias_value env a b x y u v : env 0 = ([2], [a; b]) -> env 1 = ([2; 2], [x; y; u; v]) ->
  eval N fresh use env (EAxB 1 (EVar 1) (EVar 0)) = Ok ([2; 2], [add x a; add y b; add u a; add v b]).
Proof. intros H H0. cbn [eval]. rewrite H, H0. reflexivity. Qed.
Notation e := (EUn UExp (EVar 0)).
Notation soft := (EBin BDiv e (ESum e)).
Lemma sym_softmax env x y : env 0 = ([2], [x; y]) ->
  exists Y, derive N fresh use same env 0 (ESum soft) = Ok Y /\
    eval N fresh use env Y = (let S := add (n_exp N x) (n_exp N y) in let d v := div (sub (mul (n_exp N v) S) (mul (n_exp N v) (n_exp N v))) (mul S S) in Ok ([2], [d x; d y])).
Proof.
  intros H. steps. destruct (same e e) eqn:S1, (same (ESum e) (ESum e)) eqn:S2; steps; (eexists; split; [reflexivity|]); cbn [eval]; rewrite H; lazy; rewrite ?pw2; reflexivity.
Qed.
Lemma sym_softmax_value env x y : env 0 = ([2], [x; y]) ->
  eval N fresh use env soft = (let S := add (n_exp N x) (n_exp N y) in Ok ([2], [div (n_exp N x) S; div (n_exp N y) S])).
Proof. intros H. cbn [eval]. rewrite H. reflexivity. Qed.
Notation z := (EMat false false (EVar 0) (EVar 1)).
Notation skip := (EBin BAdd z (EMat false false z (EVar 2))).
Lemma sym_skip env x a v : env 0 = ([1; 1], [x]) -> env 1 = ([1; 1], [a]) -> env 2 = ([1; 1], [v]) ->
  exists Y, derive N fresh use same env 0 (ESum skip) = Ok Y /\ eval N fresh use env Y = Ok ([1; 1], [add z0 (mul (add o1 o1) a)]).
Proof.
  intros H H0 H1. assert (E : forall e, (exists t, eval N fresh use env e = Ok t) -> forall A (k : res A), (_ <- eval N fresh use env e ;; k) = k) by (intros e0 [t Et] A k; now rewrite Et).
  steps. unfold mk_mat. cbn [mk_tr].
  rewrite !E by (cbn [eval]; rewrite H, ?H0, ?H1; destruct use; eexists; lazy; reflexivity). steps.
  eexists. split; [reflexivity|]. cbn [eval]. rewrite H, H0, H1. destruct use; lazy; rewrite ?zz; reflexivity.
Qed.
Lemma sym_skip_value env x a v : env 0 = ([1; 1], [x]) -> env 1 = ([1; 1], [a]) -> env 2 = ([1; 1], [v]) ->
  eval N fresh use env skip = Ok ([1], [add (add z0 (mul x a)) (add z0 (mul (add z0 (mul x a)) v))]).
Proof. intros H H0 H1. cbn [eval bind]. rewrite H, H0, H1. destruct use; reflexivity. Qed.
Notation prodbias := (EUn UExp (EAxB 1 (EVar 1) (EMat false false (EVar 2) (EVar 0)))).
Lemma sym_prodbias env q x y p : env 0 = ([1; 1], [q]) -> env 1 = ([1; 2], [x; y]) -> env 2 = ([1; 1], [p]) ->
  derive N fresh use same env 0 (ESum prodbias) = Throw.
Proof.
  intros H H0 H1. steps. unfold mk_axb. steps. unfold mk_mat. cbn [mk_tr].
  cbn [eval]. rewrite H, H0, H1. destruct use; lazy; reflexivity.
Qed.
Lemma sym_prodbias_value env q x y p : env 0 = ([1; 1], [q]) -> env 1 = ([1; 2], [x; y]) -> env 2 = ([1; 1], [p]) ->
  eval N fresh use env prodbias = (let m := add z0 (mul p q) in Ok ([1; 2], [n_exp N (add x m); n_exp N (add y m)])).
Proof. intros H H0 H1. cbn [eval bind]. rewrite H, H0, H1. destruct use; reflexivity. Qed.
(* the explicitly transposed factor *)
Notation expl := (EMat false false (EVar 1) (ETr (EVar 0))).
Lemma sym_expl env a b c d x y : env 0 = ([2; 2], [a; b; c; d]) -> env 1 = ([2; 1], [x; y]) ->
  exists Y, derive N fresh use same env 0 (ESum expl) = Ok Y /\
    eval N fresh use env Y = Ok ([2; 2], [mul (add z0 (mul x o1)) o1; mul (add z0 (mul x o1)) o1; mul (add z0 (mul y o1)) o1; mul (add z0 (mul y o1)) o1]).
Proof.
  intros H H0. steps. unfold mk_mat. cbn [mk_tr].
  eexists. split.
  - assert (E : forall e, (exists t, eval N fresh use env e = Ok t) -> forall A (k : res A), (_ <- eval N fresh use env e ;; k) = k) by (intros e0 [t Et] A k; now rewrite Et).
    rewrite !E by (cbn [eval]; rewrite H, H0; destruct use; eexists; lazy; reflexivity). reflexivity.
  - cbn [eval]. rewrite H, H0. destruct use; lazy; rewrite ?zz; reflexivity.
Qed.
Lemma sym_expl_value env a b c d x y : env 0 = ([2; 2], [a; b; c; d]) -> env 1 = ([2; 1], [x; y]) ->
  eval N fresh use env expl = Ok ([2; 1], [add (add z0 (mul x a)) (mul y b); add (add z0 (mul x c)) (mul y d)]).
Proof. intros H H0. cbn [eval bind]. rewrite H, H0. destruct use; reflexivity. Qed.
End Symbolic.
