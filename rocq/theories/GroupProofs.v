(** The extended gradient model agrees with GradModel.v. *)
From Verif Require Import Common ShapeModel TransformModel MatmulModel ElemModel GradModel CseModel GroupModel.

Section P.
Context {T : Type} (N : num T) (fresh : nat -> T) (strassen_on : bool) (of_nat : nat -> T) (gsame : @gexpr T -> @gexpr T -> bool).
Notation expr := (@expr T).
Definition rmap {A B} (f : A -> B) (r : res A) : res B := match r with Ok x => Ok (f x) | Throw => Throw | Abort => Abort | UB => UB end.
Let same (a b : expr) : bool := gsame (inj a) (inj b).

Lemma rmap_bind {A B C} (f : B -> C) (r : res A) (k : A -> res B) : rmap f (bind r k) = bind r (fun x => rmap f (k x)).
Proof. destruct r; reflexivity. Qed.
Lemma bind_rmap {A B C} (f : A -> B) (r : res A) (k : B -> res C) : bind (rmap f r) k = bind r (fun x => k (f x)).
Proof. destruct r; reflexivity. Qed.

Lemma geval_inj env e : geval N fresh strassen_on of_nat env (inj e) = eval N fresh strassen_on env e.
Proof. induction e; cbn [inj geval eval]; try rewrite IHe; try rewrite IHe1; try rewrite IHe2; reflexivity. Qed.

Lemma group_inj (e : expr) : grouping (inj e) = None.
Proof. induction e; cbn; auto. Qed.
Lemma leaf_inj w (e : expr) : gleaf w (inj e) = has_leaf w e.
Proof. induction e; cbn; congruence. Qed.

Lemma view_inj (e : expr) : gview N (inj e) = cview_of N e.
Proof. destruct e; reflexivity. Qed.
Lemma fold_inj op (e : expr) : gfold N op (inj e) = inj (fold_node N op e).
Proof. destruct e; reflexivity. Qed.
Lemma neg_inj (e : expr) : gneg N (inj e) = inj (mk_neg N e).
Proof. destruct e; try reflexivity. destruct op; reflexivity. Qed.
Ltac cases := repeat match goal with |- context [if ?b then _ else _] => destruct b end.
Lemma unary_inj op (e : expr) : gunary N op (inj e) = rmap inj (mk_unary N op e).
Proof.
  destruct op; cbn [gunary mk_unary rmap]; try (rewrite fold_inj; reflexivity).
  - now rewrite neg_inj.
  - cases; cbn [rmap]; now rewrite ?fold_inj.
  - cases; [reflexivity|]. destruct e; cbn [inj]; cases; cbn [rmap]; reflexivity.
  - destruct e; cbn [inj]; cases; reflexivity.
  - cases; [cbn [rmap]; now rewrite neg_inj|]. destruct e; cbn [inj]; cases; reflexivity.
  - destruct e; cbn [inj]; cases; reflexivity.
  - rewrite neg_inj. destruct e; cbn [inj]; cases; cbn [rmap]; reflexivity.
  - rewrite neg_inj. destruct e; cbn [inj]; cases; cbn [rmap]; reflexivity.
  - destruct e; cbn [inj]; cases; reflexivity.
  - destruct e; cbn [inj]; cases; reflexivity.
Qed.

Lemma binary_inj op (a b : expr) : gbinary N gsame op (inj a) (inj b) = rmap inj (mk_binary N same op a b).
Proof.
  unfold gbinary. rewrite !group_inj. destruct op; cbn [ghelper mk_binary]; rewrite !view_inj; unfold same;
    try destruct (gsame (inj a) (inj b)); rewrite ?unary_inj; try reflexivity;
    destruct (cview_of N a); rewrite ?unary_inj; try reflexivity; destruct (cview_of N b); rewrite ?unary_inj; reflexivity.
Qed.
Lemma axb_inj axis (a b : expr) : gaxial N gsame BAdd false axis (inj a) (inj b) = rmap inj (mk_axb N axis a b).
Proof.
  unfold gaxial, mk_axb. cbn [ghelper]. rewrite !view_inj. destruct (cview_of N a); rewrite ?unary_inj; try reflexivity; destruct (cview_of N b); rewrite ?unary_inj; reflexivity.
Qed.
Lemma tr_inj (a : expr) : gtr (inj a) = inj (mk_tr a).
Proof. destruct a; reflexivity. Qed.
Lemma mat_inj (a b : expr) tA tB : gmat (inj a) (inj b) tA tB = inj (mk_mat a b tA tB).
Proof. unfold gmat, mk_mat. destruct tA, tB; cbn [inj]; rewrite ?tr_inj; reflexivity. Qed.
Lemma zero_inj (a : expr) : gzero N (inj a) = is_zero_const N a.
Proof. destruct a; reflexivity. Qed.

Ltac mon := repeat (rewrite ?rmap_bind, ?bind_rmap, ?unary_inj, ?binary_inj;
  match goal with
  | |- bind ?r _ = bind ?r _ => destruct r; cbn [bind rmap]; try reflexivity
  | _ => idtac
  end).
Lemma back1_inj op (a g : expr) : gback1 N gsame op (inj a) (inj g) = rmap inj (back_unary N same op a g).
Proof. destruct op; cbn [gback1 back_unary]; try (destruct (clip_order N lo hi) as [lo' hi']); mon; reflexivity. Qed.
Lemma back2_inj op (a b ag bg : expr) : gback2 N gsame op (inj a) (inj b) (inj ag) (inj bg) = rmap inj (back_binary N same op a b ag bg).
Proof. destruct op; cbn [gback2 back_binary]; mon; reflexivity. Qed.

Definition inj_en (en : @jentry T) : @gentry T :=
  match en with
  | JMat tA tB a b ga gb => GJMat tA tB (inj a) (inj b) (rmap inj ga) (rmap inj gb)
  | JSumAx axis => GJSum axis
  end.
Definition inj_j (j : @jlist T) : @glist T := mkGJ (inj (j_uid j)) (map inj_en (j_list j)) (j_term j).

Lemma inherit_inj acc arg : ginherit gsame (option_map inj_j acc) (option_map inj_j arg) = option_map inj_j (inherit same acc arg).
Proof.
  destruct arg as [j|]; [|reflexivity]. cbn [option_map ginherit inherit inj_j gj_list gj_uid]. destruct j as [u [|en l] t]; [reflexivity|].
  cbn [j_list map j_uid]. destruct acc as [k|]; [|reflexivity]. cbn [option_map]. change (gj_uid (inj_j k)) with (inj (j_uid k)).
  change (gsame (inj u) (inj (j_uid k))) with (same u (j_uid k)). destruct (same u (j_uid k)); reflexivity.
Qed.
Lemma terminal_inj j : gterminal (option_map inj_j j) = terminal j.
Proof. destruct j; reflexivity. Qed.
Lemma push_back_inj e en j : gpush_back (inj e) (inj_en en) (option_map inj_j j) = option_map inj_j (push_back e en j).
Proof. destruct j; cbn; [|reflexivity]. unfold inj_j. cbn. now rewrite map_app. Qed.
Lemma push_front_inj e en j : gpush_front (inj e) (inj_en en) (option_map inj_j j) = option_map inj_j (push_front e en j).
Proof. destruct j; reflexivity. Qed.

Section D.
Context (env : nat -> tens T).
Lemma step_inj en x : gjac_step N fresh strassen_on of_nat gsame env (inj_en en) (inj x) = rmap inj (jac_step N fresh strassen_on same env en x).
Proof.
  destruct en as [tA tB a b ga gb|axis]; [|reflexivity]. cbn [inj_en gjac_step jac_step].
  destruct ga as [ga| | |]; cbn [rmap bind]; try reflexivity. destruct gb as [gb| | |]; cbn [rmap bind]; try reflexivity.
  rewrite !zero_inj. destruct (is_zero_const N ga && is_zero_const N gb); [reflexivity|].
  rewrite !mat_inj. 
  replace (if tA then gtr (inj (mk_mat x b false true)) else inj (mk_mat x b false true)) with (inj (if tA then mk_tr (mk_mat x b false true) else mk_mat x b false true))
    by (destruct tA; now rewrite ?tr_inj).
  replace (if tB then gtr (inj (mk_mat a x true false)) else inj (mk_mat a x true false)) with (inj (if tB then mk_tr (mk_mat a x true false) else mk_mat a x true false))
    by (destruct tB; now rewrite ?tr_inj).
  rewrite !geval_inj. mon. reflexivity.
Qed.
Lemma call_inj l x : gjac_call N fresh strassen_on of_nat gsame env (map inj_en l) (inj x) = rmap inj (jac_call N fresh strassen_on same env l x).
Proof.
  unfold gjac_call, jac_call. induction l as [|en l IH]; [reflexivity|]. cbn [map fold_right]. rewrite IH. mon. apply step_inj.
Qed.
Definition inj_i (g : @GradModel.ginfo T) : @gginfo T := (rmap inj (fst g), option_map inj_j (snd g)).
Lemma inj_pair r j : inj_i (r, j) = (rmap inj r, option_map inj_j j).
Proof. reflexivity. Qed.
Lemma derive_of_inj g : gderive_of N fresh strassen_on of_nat gsame env (inj_i g) = rmap inj (derive_of N fresh strassen_on same env g).
Proof.
  destruct g as [r j]. unfold gderive_of, derive_of, inj_i. cbn [fst snd]. mon. destruct j as [j|]; [|reflexivity]. apply call_inj.
Qed.

(** no reduction along an axis of something that depends on the variable *)
Fixpoint no_axis_sum (w : nat) (e : expr) : Prop :=
  match e with
  | EVar _ | EConst _ => True
  | EUn _ a | ETr a | ESum a | EMax a => no_axis_sum w a
  | EBin _ a b | EEq a b | EMat _ _ a b | EAxB _ a b => no_axis_sum w a /\ no_axis_sum w b
  | ESumAx _ a => has_leaf w a = false
  end.

Lemma free_ginfo w (e : expr) : has_leaf w e = false -> info N fresh strassen_on same env w e = (Ok (EConst (const_scalar (n_zero N))), None).
Proof.
  induction e; cbn [has_leaf]; intros H; try (apply Bool.orb_false_iff in H; destruct H as [H1 H2]); cbn [info];
    try (rewrite H); try (rewrite (IHe H)); try (rewrite (IHe1 H1), (IHe2 H2)); try rewrite H1, H2; try reflexivity.
Qed.

Lemma info_inj w (e : expr) : no_axis_sum w e -> GroupModel.ginfo N fresh strassen_on of_nat gsame env w (inj e) = inj_i (info N fresh strassen_on same env w e).
Proof.
  induction e; cbn [no_axis_sum]; intros H; cbn [inj GroupModel.ginfo info].
  - reflexivity.
  - reflexivity.
  - rewrite (IHe H). set (ia := info _ _ _ _ _ _ _). rewrite leaf_inj. change (snd (inj_i ia)) with (option_map inj_j (snd ia)).
    change (@None (@glist T)) with (option_map inj_j None). rewrite inherit_inj, terminal_inj, inj_pair. f_equal.
    destruct (has_leaf w e); [|reflexivity]. destruct (terminal _).
    + rewrite derive_of_inj. mon. apply back1_inj.
    + change (fst (inj_i ia)) with (rmap inj (fst ia)). mon. apply back1_inj.
  - destruct H as [H1 H2]. rewrite (IHe1 H1), (IHe2 H2). set (ia := info _ _ _ _ _ _ e1). set (ib := info _ _ _ _ _ _ e2). rewrite !leaf_inj.
    change (snd (inj_i ia)) with (option_map inj_j (snd ia)). change (snd (inj_i ib)) with (option_map inj_j (snd ib)).
    change (@None (@glist T)) with (option_map inj_j None). rewrite !inherit_inj, terminal_inj, inj_pair. f_equal.
    destruct (has_leaf w e1 || has_leaf w e2); [|reflexivity]. destruct (terminal _).
    + rewrite !derive_of_inj. mon. apply back2_inj.
    + change (fst (inj_i ia)) with (rmap inj (fst ia)). change (fst (inj_i ib)) with (rmap inj (fst ib)). mon. apply back2_inj.
  - rewrite !leaf_inj. unfold inj_i. cbn [fst snd]. destruct (has_leaf w e1 || has_leaf w e2); reflexivity.
  - rewrite (IHe H). set (ia := info _ _ _ _ _ _ _). rewrite leaf_inj. change (snd (inj_i ia)) with (option_map inj_j (snd ia)).
    change (@None (@glist T)) with (option_map inj_j None). rewrite inherit_inj, terminal_inj, inj_pair. f_equal.
    destruct (has_leaf w e); [|reflexivity]. destruct (terminal _); [rewrite derive_of_inj|change (fst (inj_i ia)) with (rmap inj (fst ia))]; mon; cbn [rmap]; now rewrite tr_inj.
  - rewrite (IHe H). set (ia := info _ _ _ _ _ _ _). rewrite leaf_inj. change (snd (inj_i ia)) with (option_map inj_j (snd ia)).
    change (@None (@glist T)) with (option_map inj_j None). rewrite inherit_inj, terminal_inj, inj_pair. f_equal.
    destruct (has_leaf w e); [|reflexivity]. destruct (terminal _); [rewrite derive_of_inj|change (fst (inj_i ia)) with (rmap inj (fst ia))]; match goal with |- _ = rmap inj ?r => destruct r; reflexivity end.
  - rewrite (IHe H). set (ia := info _ _ _ _ _ _ _). rewrite leaf_inj. change (snd (inj_i ia)) with (option_map inj_j (snd ia)).
    change (@None (@glist T)) with (option_map inj_j None). rewrite inherit_inj, terminal_inj, inj_pair. f_equal.
    destruct (has_leaf w e); [|reflexivity]. destruct (terminal _); [rewrite derive_of_inj|change (fst (inj_i ia)) with (rmap inj (fst ia))]; match goal with |- _ = rmap inj ?r => destruct r; reflexivity end.
  - rewrite leaf_inj, H. assert (Hn : no_axis_sum w e). { clear IHe. induction e; cbn in *; auto; try (apply Bool.orb_false_iff in H; destruct H; auto). }
    rewrite (IHe Hn), (free_ginfo w e H). reflexivity.
  - destruct H as [H1 H2]. rewrite (IHe1 H1), (IHe2 H2). set (ia := info _ _ _ _ _ _ e1). set (ib := info _ _ _ _ _ _ e2). rewrite !leaf_inj.
    change (snd (inj_i ia)) with (option_map inj_j (snd ia)). change (snd (inj_i ib)) with (option_map inj_j (snd ib)).
    change (@None (@glist T)) with (option_map inj_j None). rewrite !inherit_inj.
    destruct (has_leaf w e1 || has_leaf w e2); [|reflexivity]. rewrite inj_pair. cbn [rmap inj]. f_equal.
    change (GMat tA tB (inj e1) (inj e2)) with (inj (EMat tA tB e1 e2)). rewrite <- push_back_inj. reflexivity.
  - destruct H as [H1 H2]. rewrite (IHe1 H1), (IHe2 H2). set (ia := info _ _ _ _ _ _ e1). set (ib := info _ _ _ _ _ _ e2). rewrite !leaf_inj.
    change (snd (inj_i ia)) with (option_map inj_j (snd ia)). change (snd (inj_i ib)) with (option_map inj_j (snd ib)).
    change (@None (@glist T)) with (option_map inj_j None). rewrite !inherit_inj. set (j := inherit _ _ _).
    set (j' := if has_leaf w e2 then _ else _ : option (@glist T)).
    assert (Ej : j' = option_map inj_j (if has_leaf w e2 then push_front (EAxB axis e1 e2) (JSumAx axis) j else j)).
    { unfold j'. destruct (has_leaf w e2); [|reflexivity]. change (GAx BAdd false axis (inj e1) (inj e2)) with (inj (EAxB axis e1 e2)). rewrite <- push_front_inj. reflexivity. }
    rewrite Ej, terminal_inj, inj_pair. f_equal.
    destruct (has_leaf w e1 || has_leaf w e2); [|reflexivity]. destruct (terminal _).
    + rewrite !derive_of_inj. mon. cbn [gbackax]. apply axb_inj.
    + change (fst (inj_i ia)) with (rmap inj (fst ia)). change (fst (inj_i ib)) with (rmap inj (fst ib)). mon. cbn [gbackax]. apply axb_inj.
Qed.
Lemma derive_inj w (e : expr) : no_axis_sum w e ->
  gderive N fresh strassen_on of_nat gsame env w (inj e) = rmap inj (derive N fresh strassen_on same env w e).
Proof. intros H. unfold gderive, derive. rewrite (info_inj w e H). apply derive_of_inj. Qed.
End D.
End P.
