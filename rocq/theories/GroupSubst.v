(** As GroupProofs.v for expressions in which one variable stands for the shape_dep node of a
    mean: the gradient of a mean is constructed as that of a quotient by a variable. *)
From Verif Require Import Common ShapeModel TransformModel MatmulModel ElemModel GradModel CseModel GroupModel GroupProofs.

Section P.
Context {T : Type} (N : num T) (fresh : nat -> T) (strassen_on : bool) (of_nat : nat -> T) (gsame : @gexpr T -> @gexpr T -> bool).
Context (v0 : nat) (ax0 : option nat) (arg0 : @gexpr T).
Notation expr := (@expr T).
Notation G0 := (GSize ax0 arg0).
Fixpoint injs (e : expr) : @gexpr T :=
  match e with
  | EVar v => if v =? v0 then G0 else GVar v
  | EConst t => GConst t
  | EUn op a => GUn op (injs a)
  | EBin op a b => GBin op (injs a) (injs b)
  | EEq a b => GEq (injs a) (injs b)
  | ETr a => GTr (injs a)
  | ESum a => GSum None (injs a)
  | EMax a => GMax None (injs a)
  | ESumAx axis a => GSum (Some axis) (injs a)
  | EMat tA tB a b => GMat tA tB (injs a) (injs b)
  | EAxB axis a b => GAx BAdd false axis (injs a) (injs b)
  end.
Let same (a b : expr) : bool := gsame (injs a) (injs b).

Lemma injs_free e : has_leaf v0 e = false -> injs e = inj e.
Proof.
  induction e; cbn [has_leaf injs inj]; intros H; try (apply Bool.orb_false_iff in H; destruct H as [H1 H2]; now rewrite IHe1, IHe2); try (now rewrite IHe); try reflexivity.
  now rewrite H.
Qed.
Lemma injs_inj a b : injs a = injs b -> a = b.
Proof.
  revert b. induction a; intros b; destruct b; cbn [injs]; intros E;
    repeat match goal with |- _ => match type of E with context [if ?x =? ?y then _ else _] => destruct (x =? y) eqn:? end end;
    try discriminate E; try (injection E; intros; subst; f_equal; auto; fail);
    try (apply Nat.eqb_eq in Heqb, Heqb0; subst; reflexivity).
Qed.
Lemma group_injs (e : expr) : grouping (injs e) = None.
Proof. induction e; cbn; auto. now destruct (v =? v0). Qed.
Lemma leaf_injs w (e : expr) : has_leaf v0 e = false -> gleaf w (injs e) = has_leaf w e.
Proof. intros H. rewrite injs_free by exact H. apply leaf_inj. Qed.
Ltac dv := try match goal with |- context [?x =? v0] => let E := fresh "E" in destruct (x =? v0) eqn:E end.
Ltac fin := first [reflexivity | cbn; repeat match goal with H : (_ =? _) = _ |- _ => rewrite ?H; clear H end; reflexivity].

Lemma view_injs (e : expr) : gview N (injs e) = cview_of N e.
Proof. destruct e; cbn [injs]; dv; fin. Qed.
Lemma fold_injs op (e : expr) : gfold N op (injs e) = injs (fold_node N op e).
Proof. destruct e; cbn [injs]; dv; fin. Qed.
Lemma neg_injs (e : expr) : gneg N (injs e) = injs (mk_neg N e).
Proof. destruct e; cbn [injs]; dv; try fin. destruct op; reflexivity. Qed.
Ltac cases := repeat match goal with |- context [if ?b then _ else _] => lazymatch b with _ =? _ => fail | _ => destruct b end end.
Lemma unary_injs op (e : expr) : gunary N op (injs e) = rmap injs (mk_unary N op e).
Proof.
  destruct op; cbn [gunary mk_unary rmap]; try (rewrite fold_injs; reflexivity).
  - now rewrite neg_injs.
  - cases; cbn [rmap]; now rewrite ?fold_injs.
  - cases; [reflexivity|]. destruct e; cbn [injs mk_neg fold_node rmap]; dv; cases; fin.
  - destruct e; cbn [injs]; dv; cases; fin.
  - cases; [cbn [rmap]; now rewrite neg_injs|]. destruct e; cbn [injs]; dv; cases; fin.
  - destruct e; cbn [injs]; dv; cases; fin.
  - rewrite neg_injs. destruct e; cbn [injs mk_neg fold_node rmap]; dv; cases; fin.
  - rewrite neg_injs. destruct e; cbn [injs mk_neg fold_node rmap]; dv; cases; fin.
  - destruct e; cbn [injs]; dv; cases; fin.
  - destruct e; cbn [injs]; dv; cases; fin.
Qed.

Lemma binary_injs op (a b : expr) : gbinary N gsame op (injs a) (injs b) = rmap injs (mk_binary N same op a b).
Proof.
  unfold gbinary. rewrite !group_injs. destruct op; cbn [ghelper mk_binary]; rewrite !view_injs; unfold same;
    try destruct (gsame (injs a) (injs b)); rewrite ?unary_injs; try reflexivity;
    destruct (cview_of N a); rewrite ?unary_injs; try reflexivity; destruct (cview_of N b); rewrite ?unary_injs; reflexivity.
Qed.
Lemma axb_injs axis (a b : expr) : gaxial N gsame BAdd false axis (injs a) (injs b) = rmap injs (mk_axb N axis a b).
Proof.
  unfold gaxial, mk_axb. cbn [ghelper]. rewrite !view_injs. destruct (cview_of N a); rewrite ?unary_injs; try reflexivity; destruct (cview_of N b); rewrite ?unary_injs; reflexivity.
Qed.
Lemma tr_injs (a : expr) : gtr (injs a) = injs (mk_tr a).
Proof. destruct a; cbn [injs]; dv; fin. Qed.
Lemma mat_injs (a b : expr) tA tB : gmat (injs a) (injs b) tA tB = injs (mk_mat a b tA tB).
Proof. unfold gmat, mk_mat. destruct tA, tB; cbn [injs]; rewrite ?tr_injs; reflexivity. Qed.
Lemma zero_injs (a : expr) : gzero N (injs a) = is_zero_const N a.
Proof. destruct a; cbn [injs]; dv; fin. Qed.

Ltac mon := repeat (rewrite ?rmap_bind, ?bind_rmap, ?unary_injs, ?binary_injs;
  match goal with
  | |- bind ?r _ = bind ?r _ => destruct r; cbn [bind rmap]; try reflexivity
  | _ => idtac
  end).
Lemma back1_injs op (a g : expr) : gback1 N gsame op (injs a) (injs g) = rmap injs (back_unary N same op a g).
Proof. destruct op; cbn [gback1 back_unary]; try (destruct (clip_order N lo hi) as [lo' hi']); mon; reflexivity. Qed.
Lemma back2_injs op (a b ag bg : expr) : gback2 N gsame op (injs a) (injs b) (injs ag) (injs bg) = rmap injs (back_binary N same op a b ag bg).
Proof. destruct op; cbn [gback2 back_binary]; mon; reflexivity. Qed.

Definition injs_en (en : @jentry T) : @gentry T :=
  match en with
  | JMat tA tB a b ga gb => GJMat tA tB (injs a) (injs b) (rmap injs ga) (rmap injs gb)
  | JSumAx axis => GJSum axis
  end.
Definition injs_j (j : @jlist T) : @glist T := mkGJ (injs (j_uid j)) (map injs_en (j_list j)) (j_term j).

Lemma inherit_injs acc arg : ginherit gsame (option_map injs_j acc) (option_map injs_j arg) = option_map injs_j (inherit same acc arg).
Proof.
  destruct arg as [j|]; [|reflexivity]. cbn [option_map ginherit inherit injs_j gj_list gj_uid]. destruct j as [u [|en l] t]; [reflexivity|].
  cbn [j_list map j_uid]. destruct acc as [k|]; [|reflexivity]. cbn [option_map]. change (gj_uid (injs_j k)) with (injs (j_uid k)).
  change (gsame (injs u) (injs (j_uid k))) with (same u (j_uid k)). destruct (same u (j_uid k)); reflexivity.
Qed.
Lemma terminal_injs j : gterminal (option_map injs_j j) = terminal j.
Proof. destruct j; reflexivity. Qed.
Lemma push_back_injs e en j : gpush_back (injs e) (injs_en en) (option_map injs_j j) = option_map injs_j (push_back e en j).
Proof. destruct j; cbn; [|reflexivity]. unfold injs_j. cbn. now rewrite map_app. Qed.
Lemma push_front_injs e en j : gpush_front (injs e) (injs_en en) (option_map injs_j j) = option_map injs_j (push_front e en j).
Proof. destruct j; reflexivity. Qed.

Section D.
Context (env env' : nat -> tens T) (E0 : geval N fresh strassen_on of_nat env G0 = Ok (env' v0)) (Eo : forall v, v <> v0 -> env' v = env v).
Lemma geval_injs e : geval N fresh strassen_on of_nat env (injs e) = eval N fresh strassen_on env' e.
Proof.
  induction e; cbn [injs eval]; try (cbn [geval]; try rewrite IHe; try rewrite IHe1; try rewrite IHe2; reflexivity).
  destruct (v =? v0) eqn:H; [apply Nat.eqb_eq in H; subst v; exact E0|]. apply Nat.eqb_neq in H. cbn [geval]. now rewrite (Eo v H).
Qed.
Lemma step_injs en x : gjac_step N fresh strassen_on of_nat gsame env (injs_en en) (injs x) = rmap injs (jac_step N fresh strassen_on same env' en x).
Proof.
  destruct en as [tA tB a b ga gb|axis]; [|reflexivity]. cbn [injs_en gjac_step jac_step].
  destruct ga as [ga| | |]; cbn [rmap bind]; try reflexivity. destruct gb as [gb| | |]; cbn [rmap bind]; try reflexivity.
  rewrite !zero_injs. destruct (is_zero_const N ga && is_zero_const N gb); [reflexivity|].
  rewrite !mat_injs. 
  replace (if tA then gtr (injs (mk_mat x b false true)) else injs (mk_mat x b false true)) with (injs (if tA then mk_tr (mk_mat x b false true) else mk_mat x b false true))
    by (destruct tA; now rewrite ?tr_injs).
  replace (if tB then gtr (injs (mk_mat a x true false)) else injs (mk_mat a x true false)) with (injs (if tB then mk_tr (mk_mat a x true false) else mk_mat a x true false))
    by (destruct tB; now rewrite ?tr_injs).
  rewrite !geval_injs. mon. reflexivity.
Qed.
Lemma call_injs l x : gjac_call N fresh strassen_on of_nat gsame env (map injs_en l) (injs x) = rmap injs (jac_call N fresh strassen_on same env' l x).
Proof.
  unfold gjac_call, jac_call. induction l as [|en l IH]; [reflexivity|]. cbn [map fold_right]. rewrite IH. mon. apply step_injs.
Qed.
Definition injs_i (g : @GradModel.ginfo T) : @gginfo T := (rmap injs (fst g), option_map injs_j (snd g)).
Lemma injs_pair r j : injs_i (r, j) = (rmap injs r, option_map injs_j j).
Proof. reflexivity. Qed.
Lemma derive_of_injs g : gderive_of N fresh strassen_on of_nat gsame env (injs_i g) = rmap injs (derive_of N fresh strassen_on same env' g).
Proof.
  destruct g as [r j]. unfold gderive_of, derive_of, injs_i. cbn [fst snd]. mon. destruct j as [j|]; [|reflexivity]. apply call_injs.
Qed.

Lemma free_ginfo_s w (e : expr) : has_leaf w e = false -> info N fresh strassen_on same env' w e = (Ok (EConst (const_scalar (n_zero N))), None).
Proof.
  induction e; cbn [has_leaf]; intros H; try (apply Bool.orb_false_iff in H; destruct H as [H1 H2]); cbn [info];
    try (rewrite H); try (rewrite (IHe H)); try (rewrite (IHe1 H1), (IHe2 H2)); try rewrite H1, H2; try reflexivity.
Qed.
Lemma info_injs w (e : expr) : no_axis_sum w e -> has_leaf v0 e = false -> GroupModel.ginfo N fresh strassen_on of_nat gsame env w (injs e) = injs_i (info N fresh strassen_on same env' w e).
Proof.
  induction e; cbn [no_axis_sum has_leaf]; intros H Hv; cbn [injs GroupModel.ginfo info].
  - rewrite Hv. reflexivity.
  - reflexivity.
  - rewrite (IHe H Hv). set (ia := info _ _ _ _ _ _ _). rewrite leaf_injs by assumption. change (snd (injs_i ia)) with (option_map injs_j (snd ia)).
    change (@None (@glist T)) with (option_map injs_j None). rewrite inherit_injs, terminal_injs, injs_pair. f_equal.
    destruct (has_leaf w e); [|reflexivity]. destruct (terminal _).
    + rewrite derive_of_injs. mon. apply back1_injs.
    + change (fst (injs_i ia)) with (rmap injs (fst ia)). mon. apply back1_injs.
  - destruct H as [H1 H2]. apply Bool.orb_false_iff in Hv; destruct Hv as [V1 V2]; rewrite (IHe1 H1 V1), (IHe2 H2 V2). set (ia := info _ _ _ _ _ _ e1). set (ib := info _ _ _ _ _ _ e2). rewrite !leaf_injs by assumption.
    change (snd (injs_i ia)) with (option_map injs_j (snd ia)). change (snd (injs_i ib)) with (option_map injs_j (snd ib)).
    change (@None (@glist T)) with (option_map injs_j None). rewrite !inherit_injs, terminal_injs, injs_pair. f_equal.
    destruct (has_leaf w e1 || has_leaf w e2); [|reflexivity]. destruct (terminal _).
    + rewrite !derive_of_injs. mon. apply back2_injs.
    + change (fst (injs_i ia)) with (rmap injs (fst ia)). change (fst (injs_i ib)) with (rmap injs (fst ib)). mon. apply back2_injs.
  - apply Bool.orb_false_iff in Hv; destruct Hv as [V1 V2]; rewrite !leaf_injs by assumption. unfold injs_i. cbn [fst snd]. destruct (has_leaf w e1 || has_leaf w e2); reflexivity.
  - rewrite (IHe H Hv). set (ia := info _ _ _ _ _ _ _). rewrite leaf_injs by assumption. change (snd (injs_i ia)) with (option_map injs_j (snd ia)).
    change (@None (@glist T)) with (option_map injs_j None). rewrite inherit_injs, terminal_injs, injs_pair. f_equal.
    destruct (has_leaf w e); [|reflexivity]. destruct (terminal _); [rewrite derive_of_injs|change (fst (injs_i ia)) with (rmap injs (fst ia))]; mon; cbn [rmap]; now rewrite tr_injs.
  - rewrite (IHe H Hv). set (ia := info _ _ _ _ _ _ _). rewrite leaf_injs by assumption. change (snd (injs_i ia)) with (option_map injs_j (snd ia)).
    change (@None (@glist T)) with (option_map injs_j None). rewrite inherit_injs, terminal_injs, injs_pair. f_equal.
    destruct (has_leaf w e); [|reflexivity]. destruct (terminal _); [rewrite derive_of_injs|change (fst (injs_i ia)) with (rmap injs (fst ia))]; match goal with |- _ = rmap injs ?r => destruct r; reflexivity end.
  - rewrite (IHe H Hv). set (ia := info _ _ _ _ _ _ _). rewrite leaf_injs by assumption. change (snd (injs_i ia)) with (option_map injs_j (snd ia)).
    change (@None (@glist T)) with (option_map injs_j None). rewrite inherit_injs, terminal_injs, injs_pair. f_equal.
    destruct (has_leaf w e); [|reflexivity]. destruct (terminal _); [rewrite derive_of_injs|change (fst (injs_i ia)) with (rmap injs (fst ia))]; match goal with |- _ = rmap injs ?r => destruct r; reflexivity end.
  - rewrite leaf_injs, H by assumption. assert (Hn : no_axis_sum w e). { clear IHe Hv. induction e; cbn in *; auto; try (apply Bool.orb_false_iff in H; destruct H; auto). }
    rewrite (IHe Hn Hv), (free_ginfo_s w e H). reflexivity.
  - destruct H as [H1 H2]. apply Bool.orb_false_iff in Hv; destruct Hv as [V1 V2]; rewrite (IHe1 H1 V1), (IHe2 H2 V2). set (ia := info _ _ _ _ _ _ e1). set (ib := info _ _ _ _ _ _ e2). rewrite !leaf_injs by assumption.
    change (snd (injs_i ia)) with (option_map injs_j (snd ia)). change (snd (injs_i ib)) with (option_map injs_j (snd ib)).
    change (@None (@glist T)) with (option_map injs_j None). rewrite !inherit_injs.
    destruct (has_leaf w e1 || has_leaf w e2); [|reflexivity]. rewrite injs_pair. cbn [rmap injs]. f_equal.
    change (GMat tA tB (injs e1) (injs e2)) with (injs (EMat tA tB e1 e2)). rewrite <- push_back_injs. reflexivity.
  - destruct H as [H1 H2]. apply Bool.orb_false_iff in Hv; destruct Hv as [V1 V2]; rewrite (IHe1 H1 V1), (IHe2 H2 V2). set (ia := info _ _ _ _ _ _ e1). set (ib := info _ _ _ _ _ _ e2). rewrite !leaf_injs by assumption.
    change (snd (injs_i ia)) with (option_map injs_j (snd ia)). change (snd (injs_i ib)) with (option_map injs_j (snd ib)).
    change (@None (@glist T)) with (option_map injs_j None). rewrite !inherit_injs. set (j := inherit _ _ _).
    set (j' := if has_leaf w e2 then _ else _ : option (@glist T)).
    assert (Ej : j' = option_map injs_j (if has_leaf w e2 then push_front (EAxB axis e1 e2) (JSumAx axis) j else j)).
    { unfold j'. destruct (has_leaf w e2); [|reflexivity]. change (GAx BAdd false axis (injs e1) (injs e2)) with (injs (EAxB axis e1 e2)). rewrite <- push_front_injs. reflexivity. }
    rewrite Ej, terminal_injs, injs_pair. f_equal.
    destruct (has_leaf w e1 || has_leaf w e2); [|reflexivity]. destruct (terminal _).
    + rewrite !derive_of_injs. mon. cbn [gbackax]. apply axb_injs.
    + change (fst (injs_i ia)) with (rmap injs (fst ia)). change (fst (injs_i ib)) with (rmap injs (fst ib)). mon. cbn [gbackax]. apply axb_injs.
Qed.
Lemma derive_injs w (e : expr) : no_axis_sum w e -> has_leaf v0 e = false ->
  gderive N fresh strassen_on of_nat gsame env w (injs e) = rmap injs (derive N fresh strassen_on same env' w e).
Proof. intros H Hv. unfold gderive, derive. rewrite (info_injs w e H Hv). apply derive_of_injs. Qed.
End D.
End P.
