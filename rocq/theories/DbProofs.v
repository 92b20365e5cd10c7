(** Gradients of the layers of a belief network: the node derive returns is not a constant. *)
From Coq Require Import String Reals Lra Lia.
From Verif Require Import Common ShapeModel ShapeProofs ShapeSpec TransformSpec TransformModel TransformProofs TransformLaws MatmulSpec ElemModel ElemProofs NumSpec RealNum ElemLaws GradModel GradSpec GradProofs MatrixSpec MatrixProofs MlpModel MlpProofs MlpLaws CopyLaws NetSpec NetProofs NetMlpProofs DbGrad.
Local Open Scope list_scope.
Local Open Scope R_scope.

Section Head.
Context (fresh : nat -> R) (use : bool) (same : @expr R -> @expr R -> bool).
Context (same_ok : forall a b, same a b = true -> a = b).
Context (env : nat -> tens R) (w : nat).
Notation nfo := (info Rnum fresh use same env w).
Definition solid (en : @jentry R) : Prop := forall X Y, jac_step Rnum fresh use same env en X = Ok Y -> nonconst Y.
Definition headed (j : option (@jlist R)) : Prop := exists k en L, j = Some k /\ j_list k = en :: L /\ solid en.

Lemma headed_call j X Y : headed (Some j) -> jac_call Rnum fresh use same env (j_list j) X = Ok Y -> nonconst Y.
Proof.
  intros (k & en & L & K & E & Sd) H. injection K as <-. rewrite E in H. unfold jac_call in H. cbn [fold_right] in H.
  destruct (fold_right _ _ L) as [x| | |]; try discriminate H. cbn [bind] in H. now apply Sd in H.
Qed.
Lemma inherit_head j : headed j -> headed (inherit same None j).
Proof. intros (k & en & L & -> & E & S). unfold inherit. rewrite E. do 3 eexists. split; [reflexivity|]. split; [reflexivity|exact S]. Qed.
Lemma un_head op a : headed (snd (nfo a)) -> headed (snd (nfo (EUn op a))).
Proof. intros H. cbn [info snd]. now apply inherit_head. Qed.
Lemma mat_head e p : has_leaf w e = true -> headed (snd (nfo e)) -> headed (snd (nfo (EMat false false e (EVar p)))).
Proof.
  intros L H. cbn [info]. rewrite L. cbn [orb snd info inherit]. apply inherit_head in H. destruct H as (k & en & l & -> & E & S).
  cbn [push_back]. do 3 eexists. split; [reflexivity|]. split; [cbn [j_list]; rewrite E; reflexivity|exact S].
Qed.
Lemma axb_head e b : b <> w -> headed (snd (nfo e)) -> headed (snd (nfo (EAxB 1 e (EVar b)))).
Proof.
  intros Hb H. cbn [info has_leaf snd]. replace (b =? w)%nat with false by (symmetry; now apply Nat.eqb_neq). cbn [snd inherit]. now apply inherit_head.
Qed.
Lemma axb_base e : headed (snd (nfo (EAxB 1 e (EVar w)))).
Proof.
  cbn [info has_leaf snd]. rewrite Nat.eqb_refl. cbn [snd inherit].
  assert (S : solid (JSumAx 1)) by (intros X Y [= <-]; exact I).
  destruct (inherit same None (snd (nfo e))) as [k|]; cbn [push_front]; do 3 eexists; (split; [reflexivity|]); (split; [reflexivity|exact S]).
Qed.
Lemma zero_c : const_is Rnum (const_scalar 0) (n_zero Rnum) = true.
Proof. unfold const_is. cbn [snd const_scalar]. now apply Reqb_iff. Qed.
Lemma one_c : const_is Rnum (const_scalar 1) (n_zero Rnum) = false.
Proof. apply scalar_not_zero. lra. Qed.
Lemma mul_zero tA tB a b : mk_binary Rnum same BMul (EMat tA tB a b) (EConst (const_scalar 0)) = Ok (EConst (const_scalar 0)).
Proof. cbn [mk_binary]. rewrite (differ same same_ok) by discriminate. cbn [cview_of]. rewrite zero_c. reflexivity. Qed.
Lemma mul_one tA tB a b : mk_binary Rnum same BMul (EMat tA tB a b) (EConst (const_scalar 1)) = Ok (EMat tA tB a b).
Proof.
  cbn [mk_binary]. rewrite (differ same same_ok) by discriminate. cbn [cview_of]. rewrite one_c.
  replace (one_elem (const_scalar 1)) with true by reflexivity. cbn [const_scalar snd mk_unary].
  rewrite (Reqb_no (n_zero Rnum)) by (cbn; lra). change (n_one Rnum) with 1. rewrite Reqb_yes. reflexivity.
Qed.
Lemma zero_add tA tB a b : mk_binary Rnum same BAdd (EConst (const_scalar 0)) (EMat tA tB a b) = Ok (EMat tA tB a b).
Proof. cbn [mk_binary]. rewrite ?(differ same same_ok) by discriminate. cbn [cview_of]. rewrite zero_c. reflexivity. Qed.
Lemma mat_base e : has_leaf w e = false -> headed (snd (nfo (EMat false false e (EVar w)))).
Proof.
  intros L. cbn [info has_leaf]. rewrite L, Nat.eqb_refl. cbn [orb snd fst inherit].
  rewrite (free_info fresh use same env w e L). cbn [snd fst inherit push_back]. do 3 eexists. split; [reflexivity|]. split; [reflexivity|].
  intros X Y H. cbn [jac_step bind is_zero_const] in H. change (n_one Rnum) with 1 in H. rewrite zero_c, one_c in H. cbn [andb] in H.
  repeat match type of H with (_ <- eval _ _ _ _ ?e ;; _) = _ => destruct (eval Rnum fresh use env e); try discriminate H; cbn [bind] in H end.
  unfold mk_mat in H. rewrite mul_zero in H. cbn [bind] in H. rewrite mul_one in H. cbn [bind] in H. rewrite zero_add in H. injection H as <-. exact I.
Qed.

Notation params ls := (flat_map (fun p => fc_variables (fst p)) ls).
Definition plain (hs : list (nat * @act R)) : Prop := Forall (fun h => snd h = mk_sigmoid Rnum \/ snd h = mk_id) hs.
Lemma act_head f e o : f = mk_sigmoid Rnum \/ f = mk_id -> layer_node e -> f e = Ok o -> headed (snd (nfo e)) -> headed (snd (nfo o)) /\ has_leaf w o = has_leaf w e.
Proof.
  intros [-> | ->] Hl E H.
  - rewrite sigmoid_node in E by exact Hl. injection E as <-. split; [|reflexivity]. now do 4 apply un_head.
  - injection E as <-. auto.
Qed.
Lemma act_leaf f e o : f = mk_sigmoid Rnum \/ f = mk_id -> layer_node e -> f e = Ok o -> has_leaf w o = has_leaf w e.
Proof. intros [-> | ->] Hl E; [rewrite sigmoid_node in E by exact Hl|]; injection E as <-; reflexivity. Qed.
Lemma rest_head (st : @store R) ls n hs e z : chain st n ls hs -> plain hs -> ~ In w (params ls) -> has_leaf w e = true -> headed (snd (nfo e)) ->
  mlp_fold Rnum same ls e = Ok z -> headed (snd (nfo z)).
Proof.
  revert n hs e. induction ls as [|[l f] ls IH]; intros n [|[c f'] hs] e; cbn [chain]; try contradiction; intros C A Hw Lw H E.
  - injection E as <-. exact H.
  - destruct C as (<- & (p & b & vw & vb & W1 & _) & C). inversion A as [|? ? A1 A2]; subst. cbn [snd] in A1. cbn [flat_map fst] in Hw.
    assert (Ev : fc_variables l = [p; b]) by (unfold fc_variables; now rewrite W1). rewrite Ev in Hw. cbn [app In] in Hw.
    cbn [mlp_fold] in E. rewrite fc_call_single, W1 in E. cbn [bind] in E. destruct (f (EAxB 1 (EMat false false e (EVar p)) (EVar b))) as [o| | |] eqn:Eo; try discriminate E. cbn [bind] in E.
    assert (H1 : headed (snd (nfo (EAxB 1 (EMat false false e (EVar p)) (EVar b))))) by (apply axb_head; [intros ->; tauto|]; now apply mat_head).
    destruct (act_head f (EAxB 1 (EMat false false e (EVar p)) (EVar b)) o A1 I Eo H1) as [H2 L2]. apply (IH c hs o); auto. rewrite L2. cbn [has_leaf]. now rewrite Lw.
Qed.
Lemma chain_head (st : @store R) ls n hs e z : chain st n ls hs -> plain hs -> NoDup (params ls) -> In w (params ls) -> has_leaf w e = false ->
  mlp_fold Rnum same ls e = Ok z -> headed (snd (nfo z)).
Proof.
  revert n hs e. induction ls as [|[l f] ls IH]; intros n [|[c f'] hs] e; cbn [chain]; try contradiction; intros C A Nd Hw Lw E.
  destruct C as (<- & (p & b & vw & vb & W1 & _) & C). inversion A as [|? ? A1 A2]; subst. cbn [snd] in A1. cbn [flat_map fst] in Hw, Nd.
  assert (Ev : fc_variables l = [p; b]) by (unfold fc_variables; now rewrite W1). rewrite Ev in Hw, Nd. cbn [app In] in Hw, Nd. inversion Nd as [|? ? N1 N2]; subst. inversion N2 as [|? ? N3 N4]; subst. cbn [In] in N1.
  cbn [mlp_fold] in E. rewrite fc_call_single, W1 in E. cbn [bind] in E. destruct (f (EAxB 1 (EMat false false e (EVar p)) (EVar b))) as [o| | |] eqn:Eo; try discriminate E. cbn [bind] in E.
  pose proof (act_leaf f (EAxB 1 (EMat false false e (EVar p)) (EVar b)) o A1 I Eo) as Lo. cbn [has_leaf] in Lo. rewrite Lw in Lo. cbn [orb] in Lo.
  destruct Hw as [Hp|[Hb|Hw]].
  - assert (H1 : headed (snd (nfo (EAxB 1 (EMat false false e (EVar p)) (EVar b))))) by (apply axb_head; [intros Q; apply N1; left; congruence|]; rewrite Hp; now apply mat_base).
    destruct (act_head f (EAxB 1 (EMat false false e (EVar p)) (EVar b)) o A1 I Eo H1) as [H2 L2]. apply (rest_head st ls c hs o); auto; [rewrite <- Hp; tauto|]. rewrite Lo, Hp, Nat.eqb_refl. reflexivity.
  - assert (H1 : headed (snd (nfo (EAxB 1 (EMat false false e (EVar p)) (EVar b))))) by (rewrite Hb; apply axb_base).
    destruct (act_head f (EAxB 1 (EMat false false e (EVar p)) (EVar b)) o A1 I Eo H1) as [H2 L2]. apply (rest_head st ls c hs o); auto; [rewrite <- Hb; tauto|]. rewrite Lo, Hb, Nat.eqb_refl. apply Bool.orb_true_r.
  - apply (IH c hs o); auto. rewrite Lo. apply Bool.orb_false_iff. split; apply Nat.eqb_neq; intros ->; tauto.
Qed.
End Head.
