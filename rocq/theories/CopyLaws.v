(** Laws of copying layers, networks and models: C45. *)
From Coq Require Import String Ring Reals Lra Lia.
From Verif Require Import Common ShapeModel ElemModel ElemProofs NumSpec RealNum ElemLaws GradModel DqnModel MatrixSpec MatrixProofs MlpSpec MlpModel MlpProofs MlpLaws.
Local Open Scope list_scope.

(** ---- specification ---- *)

(** the same parameter, apart from its label *)
Definition same_param {T} (a b : @var T) : Prop := v_shape a = v_shape b /\ v_init a = v_init b /\ v_data a = v_data b.

(** [copies] lists copies of the variables [orig] of store st: in the same order, equal but
    for their labels, newly created and all different; nothing of st has changed in st' *)
Definition copied {T} (st st' : @store T) (orig copies : list nat) : Prop :=
  (exists added, st' = st ++ added) /\ NoDup copies /\
  Forall2 (fun p q => length st <= q /\ exists a b, deref st p = Ok a /\ deref st' q = Ok b /\ same_param a b) orig copies.

(** all variables of the list exist *)
Definition alive {T} (st : @store T) (ps : list nat) : Prop := forall p, In p ps -> exists v, deref st p = Ok v.

(** an activation function whose result depends only on the value of the layer it is applied to *)
Definition by_value {T} (N : num T) fresh use (f : @act T) : Prop :=
  exists F, forall e, layer_node e ->
    exists x, f e = Ok x /\ forall env, eval N fresh use env x = (t <- eval N fresh use env e ;; F t).

(** the value of a network's output for an input node *)
Definition output_value {T} (N : num T) same fresh use (env : nat -> tens T) (m : @mlp T) (input : @expr T) (in_shape : shape) : res (tens T) :=
  x <- mlp_prop_up N same m input in_shape ;; eval N fresh use env x.

(** env gives the data the variable at p holds *)
Definition holds {T} (st : @store T) (env : nat -> tens T) (p : nat) : Prop :=
  exists v, deref st p = Ok v /\ v_data v = Some (env p).

(** ---- proofs ---- *)
Section P.
Context {T : Type}.

Lemma deref_lt (st : @store T) p v : deref st p = Ok v -> p < length st.
Proof. unfold deref. destruct (nth_error st p) as [o|] eqn:E; [|discriminate]. intros _. apply nth_error_Some. congruence. Qed.
Lemma F2_imp {A B} (P Q : A -> B -> Prop) l l' : (forall a b, In a l -> In b l' -> P a b -> Q a b) -> Forall2 P l l' -> Forall2 Q l l'.
Proof. intros H F. induction F as [|a b l l' H1 F IH]; constructor; [apply H; cbn; auto|]. apply IH. intros; apply H; cbn; auto. Qed.
Lemma F2_in_r {A B} (P : A -> B -> Prop) l l' b : Forall2 P l l' -> In b l' -> exists a, In a l /\ P a b.
Proof. intros F. induction F as [|x y l l' H F IH]; intros []; [subst; exists x; cbn; auto|]. destruct IH as (a & I & Pa); auto. exists a. cbn. auto. Qed.

Lemma alive_app (st ext : @store T) ps : alive st ps -> alive (st ++ ext) ps.
Proof. intros H p Hp. destruct (H p Hp) as [v E]. exists v. now apply deref_app. Qed.
Lemma copied_nil (st : @store T) : copied st st [] [].
Proof. split; [exists []; now rewrite app_nil_r|]. split; constructor. Qed.
Lemma copied_app (st st1 st2 : @store T) o1 c1 o2 c2 : alive st o2 -> copied st st1 o1 c1 -> copied st1 st2 o2 c2 -> copied st st2 (o1 ++ o2) (c1 ++ c2).
Proof.
  intros Ha ((x1 & X1) & D1 & F1) ((x2 & X2) & D2 & F2). split; [exists (x1 ++ x2); now rewrite X2, X1, app_assoc|].
  assert (B1 : forall q, In q c1 -> length st <= q < length st1).
  { intros q Hq. destruct (F2_in_r _ _ _ _ F1 Hq) as (p & _ & Hl & a & b & _ & E & _). apply deref_lt in E. lia. }
  assert (B2 : forall q, In q c2 -> length st1 <= q).
  { intros q Hq. destruct (F2_in_r _ _ _ _ F2 Hq) as (p & _ & Hl & _). lia. }
  split.
  - clear - D1 D2 B1 B2. revert D1 B1. induction c1 as [|q c1 IH]; cbn [app]; auto. intros D1 B1. inversion D1; subst. constructor.
    + intros H. apply in_app_or in H. destruct H as [H|H]; [contradiction|]. apply B2 in H. specialize (B1 q (or_introl eq_refl)). lia.
    + apply IH; auto. intros r Hr. apply B1. now right.
  - apply Forall2_app.
    + eapply F2_imp; [|exact F1]. intros p q _ _ (Hl & a & b & E1 & E2 & E3). split; [exact Hl|]. exists a, b. split; [exact E1|]. split; [|exact E3]. rewrite X2. now apply deref_app.
    + eapply F2_imp; [|exact F2]. intros p q Hp _ (Hl & a & b & E1 & E2 & E3). split; [rewrite X1, app_length in Hl; lia|]. exists a, b.
      destruct (Ha p Hp) as [v Ev]. assert (Ev' : deref st1 p = Ok v) by (rewrite X1; now apply deref_app). split; [congruence|]. split; assumption.
Qed.
Lemma copied_one (st : @store T) p v v' : deref st p = Ok v -> same_param v v' -> copied st (st ++ [Some v']) [p] [length st].
Proof.
  intros E S. split; [eexists; reflexivity|]. split; [repeat constructor; auto|]. constructor; [|constructor]. split; [lia|].
  exists v, v'. split; [exact E|]. split; [apply deref_last|exact S].
Qed.
Lemma copied_ext (st st' : @store T) o c : copied st st' o c -> exists x, st' = st ++ x.
Proof. intros (H & _). exact H. Qed.
Lemma alive_copied (st st' : @store T) o c ps : copied st st' o c -> alive st ps -> alive st' ps.
Proof. intros ((x & ->) & _) H. now apply alive_app. Qed.
Lemma alive_sub (st : @store T) ps qs : (forall p, In p qs -> In p ps) -> alive st ps -> alive st qs.
Proof. intros H A p Hp. apply A, H, Hp. Qed.

Notation flat := (flat_map (fun p : nat * nat => [fst p; snd p])).

Lemma fc_copy_ok scope wb i (st : @store T) : alive st (flat wb) ->
  exists wb' st', fc_copy_from scope wb i st = Ok (wb', st') /\ length wb' = length wb /\ copied st st' (flat wb) (flat wb').
Proof.
  revert i st. induction wb as [|[w b] wb IH]; intros i st Ha; cbn [fc_copy_from flat_map].
  - exists [], st. split; [reflexivity|]. split; [reflexivity|]. apply copied_nil.
  - cbn [flat_map app fst snd] in Ha. destruct (Ha w (or_introl eq_refl)) as [vw Ew]. destruct (Ha b (or_intror (or_introl eq_refl))) as [vb Eb].
    rewrite Ew, Eb. cbn [bind alloc]. set (nw := relabel _ vw). set (nb := relabel _ vb).
    assert (C1 : copied st (st ++ [Some nw]) [w] [length st]) by (apply copied_one with (v := vw); [exact Ew|repeat split]).
    assert (C2 : copied (st ++ [Some nw]) ((st ++ [Some nw]) ++ [Some nb]) [b] [length (st ++ [Some nw])]) by (apply copied_one with (v := vb); [now apply deref_app|repeat split]).
    assert (Ab : alive st [b]) by (intros p [<-|[]]; eauto). pose proof (copied_app _ _ _ _ _ _ _ Ab C1 C2) as C12.
    destruct (IH (S i) ((st ++ [Some nw]) ++ [Some nb])) as (wb' & st2 & E & L & C3).
    { eapply alive_copied; [exact C12|]. eapply alive_sub; [|exact Ha]. cbn; auto. }
    rewrite E. cbn [bind fst snd]. exists ((length st, length (st ++ [Some nw])) :: wb'), st2. split; [reflexivity|]. split; [cbn; lia|].
    assert (Ar : alive st (flat wb)) by (eapply alive_sub; [|exact Ha]; cbn; auto). apply (copied_app _ _ _ _ _ _ _ Ar C12 C3).
Qed.

Lemma fc_clone_ok (l : fc_layer) scope (st : @store T) : alive st (fc_variables l) ->
  exists l' st', fc_clone l scope st = Ok (l', st') /\ length (fc_wb l') = length (fc_wb l) /\ copied st st' (fc_variables l) (fc_variables l').
Proof.
  intros Ha. unfold fc_clone. destruct (fc_copy_ok (copied_scope (fc_scope l) scope) (fc_wb l) 0 st Ha) as (wb' & st' & E & L & C). rewrite E. cbn [bind fst snd].
  exists (mkFc (copied_scope (fc_scope l) scope) wb'), st'. auto.
Qed.

Notation mflat := (flat_map (fun p : fc_layer * @act T => fc_variables (fst p))).
Lemma mlp_copy_ok scope ls i (st : @store T) : alive st (mflat ls) ->
  exists ls' st', mlp_copy_from scope ls i st = Ok (ls', st') /\ Forall2 (fun a b => length (fc_wb (fst b)) = length (fc_wb (fst a)) /\ snd b = snd a) ls ls' /\ copied st st' (mflat ls) (mflat ls').
Proof.
  revert i st. induction ls as [|[l f] ls IH]; intros i st Ha; cbn [mlp_copy_from flat_map].
  - exists [], st. split; [reflexivity|]. split; [constructor|]. apply copied_nil.
  - cbn [flat_map fst] in Ha.
    assert (A1 : alive st (fc_variables l)) by (eapply alive_sub; [|exact Ha]; intros p Hp; apply in_or_app; auto).
    assert (A2 : alive st (mflat ls)) by (eapply alive_sub; [|exact Ha]; intros p Hp; apply in_or_app; auto).
    destruct (fc_clone_ok l (scope ++ ":hiddens" ++ decimal i)%string st A1) as (l' & st1 & E1 & L1 & C1). rewrite E1. cbn [bind fst snd].
    destruct (IH (S i) st1) as (ls' & st2 & E2 & L2 & C2); [eapply alive_copied; eauto|]. rewrite E2. cbn [bind fst snd].
    exists ((l', f) :: ls'), st2. split; [reflexivity|]. split; [constructor; auto|]. cbn [flat_map fst]. apply (copied_app _ _ _ _ _ _ _ A2 C1 C2).
Qed.

(** ---- what an output depends on ---- *)
Context (N : num T) (same : @expr T -> @expr T -> bool) (fresh : nat -> T) (use : bool).
Notation ev := (eval N fresh use).

Lemma fc_call_single (l : fc_layer) e : fc_call N same l [e] = match fc_wb l with [(w, b)] => Ok (EAxB 1 (EMat false false e (EVar w)) (EVar b)) | _ => UB end.
Proof.
  unfold fc_call, fc_one. destruct (fc_wb l) as [|[w b] [|p wb]]; cbn [rd nth_error bind fst snd length Nat.sub]; [reflexivity|reflexivity|].
  unfold mk_axb, mk_mat. cbn [cview_of bind]. unfold for_. cbn [forloop]. cbn [rd nth_error bind]. reflexivity.
Qed.

Lemma F2_app_inv {A B} (P : A -> B -> Prop) l1 l2 m1 m2 : length l1 = length m1 -> Forall2 P (l1 ++ l2) (m1 ++ m2) -> Forall2 P l1 m1 /\ Forall2 P l2 m2.
Proof.
  revert m1. induction l1 as [|a l1 IH]; intros [|b m1] L H; cbn in *; try discriminate; auto.
  inversion H; subst. destruct (IH m1) as [H1 H2]; auto.
Qed.
Lemma flat_len (wb wb' : list (nat * nat)) : length wb = length wb' -> length (flat wb) = length (flat wb').
Proof. revert wb'. induction wb as [|p wb IH]; intros [|q wb'] H; cbn in *; try discriminate; auto. Qed.

Lemma fold_eq ls1 ls2 env1 env2 e1 e2 : Forall2 (fun a b => length (fc_wb (fst b)) = length (fc_wb (fst a)) /\ snd b = snd a) ls1 ls2 ->
  Forall (fun a => by_value N fresh use (snd a)) ls1 ->
  Forall2 (fun p q => env1 p = env2 q) (mflat ls1) (mflat ls2) -> ev env1 e1 = ev env2 e2 ->
  (x <- mlp_fold N same ls1 e1 ;; ev env1 x) = (x <- mlp_fold N same ls2 e2 ;; ev env2 x).
Proof.
  intros H. revert e1 e2. induction H as [|[l1 f1] [l2 f2] ls1 ls2 [H1 H2] H IH]; intros e1 e2 Hb Hv He; cbn [mlp_fold].
  - exact He.
  - cbn [fst snd flat_map] in *. subst f2. inversion Hb as [|? ? B1 B2]; subst. cbn [snd] in B1.
    destruct (F2_app_inv _ _ _ _ _ (flat_len _ _ (eq_sym H1)) Hv) as [V1 V2].
    rewrite !fc_call_single. unfold fc_variables in V1. destruct (fc_wb l1) as [|[w1 b1] [|? ?]]; destruct (fc_wb l2) as [|[w2 b2] [|? ?]]; cbn in H1; try discriminate; try reflexivity.
    cbn [flat_map app fst snd] in V1. inversion V1 as [|? ? ? ? E1 V1']; subst. inversion V1' as [|? ? ? ? E2 _]; subst. cbn [bind].
    destruct B1 as [F HF]. destruct (HF (EAxB 1 (EMat false false e1 (EVar w1)) (EVar b1)) I) as (x1 & X1 & Y1). destruct (HF (EAxB 1 (EMat false false e2 (EVar w2)) (EVar b2)) I) as (x2 & X2 & Y2).
    rewrite X1, X2. cbn [bind]. apply IH; auto. rewrite Y1, Y2. cbn [eval]. now rewrite He, E1, E2.
Qed.
Lemma F2_refl {A} (P : A -> A -> Prop) l : (forall a, In a l -> P a a) -> Forall2 P l l.
Proof. induction l as [|a l IH]; intros H; constructor; [apply H; now left|]. apply IH. intros; apply H; now right. Qed.
End P.

Lemma eval_leaves {T} (N : num T) fresh use e1 e2 e : (forall v, has_leaf v e = true -> e1 v = e2 v) -> eval N fresh use e1 e = eval N fresh use e2 e.
Proof.
  induction e as [v|t|o a IH|o a IHa b IHb|a IHa b IHb|a IH|a IH|a IH|ax a IH|tA tB a IHa b IHb|ax a IHa b IHb]; intros H; cbn [eval];
    try (rewrite IH by (intros v Hv; apply H; exact Hv); reflexivity);
    try (rewrite IHa, IHb by (intros v Hv; apply H; cbn; rewrite Hv; auto using orb_true_r); reflexivity).
  - f_equal. apply H. cbn. apply Nat.eqb_refl.
  - reflexivity.
Qed.
Lemma mlp_clone_ok {T} (m : @mlp T) scope st : alive st (mlp_variables m) ->
  exists m' st', mlp_clone m scope st = Ok (m', st') /\ m_nin m' = m_nin m /\ m_nout m' = m_nout m /\ m_scope m' = copied_scope (m_scope m) scope /\
    Forall2 (fun a b => length (fc_wb (fst b)) = length (fc_wb (fst a)) /\ snd b = snd a) (m_layers m) (m_layers m') /\ copied st st' (mlp_variables m) (mlp_variables m').
Proof.
  intros Ha. unfold mlp_clone. destruct (mlp_copy_ok (copied_scope (m_scope m) scope) (m_layers m) 0 st Ha) as (ls & st' & E & L & C). rewrite E. cbn [bind fst snd].
  exists (mkMlp (copied_scope (m_scope m) scope) (m_nin m) (m_nout m) ls), st'. auto 8.
Qed.
Lemma copied_env {T} (st st' : @store T) o c env : copied st st' o c -> (forall p, In p o -> holds st' env p) -> (forall p, In p c -> holds st' env p) ->
  Forall2 (fun p q => env p = env q) o c.
Proof.
  intros ((x & ->) & _ & F) Ho Hc. eapply F2_imp; [|exact F]. intros p q Hp Hq (_ & a & b & E1 & E2 & (_ & _ & S)).
  destruct (Ho p Hp) as (v & V1 & V2). destruct (Hc q Hq) as (u & U1 & U2). rewrite (deref_app st x p a E1) in V1. injection V1 as <-. rewrite E2 in U1. injection U1 as <-. congruence.
Qed.

(** ---- C45 ---- *)

(** Cloning a layer: the clone has copies of all parameters in the same order, in newly
    created variables; nothing else changes. *)
Lemma C45_fc_layer_clone_lemma :
  forall (T : Type) (l : fc_layer) scope (st : @store T), alive st (fc_variables l) ->
    exists l' st', fc_clone l scope st = Ok (l', st') /\ copied st st' (fc_variables l) (fc_variables l').
Proof. intros T l scope st Ha. destruct (fc_clone_ok l scope st Ha) as (l' & st' & E & _ & C). eauto. Qed.

(** Cloning an mlp: same sizes, copies of all parameters in the same order in newly created
    variables, and for every input the same output. *)
Lemma C45_mlp_clone_lemma :
  forall (T : Type) (N : num T) same fresh use (m : @mlp T) scope st,
    alive st (mlp_variables m) -> Forall (fun a => by_value N fresh use (snd a)) (m_layers m) ->
    exists m' st', mlp_clone m scope st = Ok (m', st') /\ m_nin m' = m_nin m /\ m_nout m' = m_nout m /\
      copied st st' (mlp_variables m) (mlp_variables m') /\
      forall env input in_shape, (forall p, In p (mlp_variables m) \/ In p (mlp_variables m') -> holds st' env p) ->
        output_value N same fresh use env m' input in_shape = output_value N same fresh use env m input in_shape.
Proof.
  intros T N same fresh use m scope st Ha Hb. destruct (mlp_clone_ok m scope st Ha) as (m' & st' & E & E1 & E2 & _ & F & C).
  exists m', st'. split; [exact E|]. split; [exact E1|]. split; [exact E2|]. split; [exact C|].
  intros env input s H. unfold output_value, mlp_prop_up. rewrite E1. destruct (check_input (m_nin m) s); cbn [bind]; try reflexivity. symmetry.
  apply fold_eq; auto. apply (copied_env st st'); auto.
Qed.

(** Training either leaves the other unchanged: the output of any mlp depends only on its own
    variables and the leaves of the input, and no variable of the clone is one of the store
    the original lives in. *)
Lemma C45_mlp_independent_lemma :
  forall (T : Type) (N : num T) same fresh use (m : @mlp T) env env' input in_shape,
    Forall (fun a => by_value N fresh use (snd a)) (m_layers m) ->
    (forall v, In v (mlp_variables m) \/ has_leaf v input = true -> env v = env' v) ->
    output_value N same fresh use env m input in_shape = output_value N same fresh use env' m input in_shape.
Proof.
  intros T N same fresh use m env env' input s Hb H. unfold output_value, mlp_prop_up. destruct (check_input (m_nin m) s); cbn [bind]; try reflexivity.
  apply fold_eq; auto; [apply F2_refl; auto|apply F2_refl; auto|]. apply eval_leaves. auto.
Qed.
Lemma C45_clone_disjoint_lemma :
  forall (T : Type) (st st' : @store T) orig copies, alive st orig -> copied st st' orig copies ->
    forall p, In p orig -> ~ In p copies.
Proof.
  intros T st st' o c Ha (_ & _ & F) p Hp Hq. destruct (Ha p Hp) as [v E]. apply deref_lt in E.
  destruct (F2_in_r _ _ _ _ F Hq) as (p' & _ & Hl & _). lia.
Qed.

(** sigmoid, tanh and the identity depend only on the layer's value *)
Lemma C45_activations_lemma :
  forall same fresh use, (forall a b, same a b = true -> a = b) ->
    by_value Rnum fresh use (mk_sigmoid Rnum) /\ by_value Rnum fresh use (mk_tanh Rnum same) /\ by_value Rnum fresh use mk_id.
Proof.
  intros same fresh use Hs. split; [|split].
  - exists (fun t => eval Rnum fresh use (fun _ => t) (EUn (UDivL 1%R) (EUn (UAddL 1%R) (EUn UExp (EUn UNeg (EVar 0)))))).
    intros e He. eexists. split; [now apply sigmoid_node|]. intros env. cbn [eval]. destruct (eval Rnum fresh use env e); reflexivity.
  - exists (fun t => eval Rnum fresh use (fun _ => t) (EBin BDiv (EUn (USubR 1%R) (EUn UExp (EUn (UMulL 2%R) (EVar 0)))) (EUn (UAddR 1%R) (EUn UExp (EUn (UMulL 2%R) (EVar 0)))))).
    intros e He. eexists. split; [apply tanh_node; [exact He|]|].
    + intros x. destruct (same _ _) eqn:E; [apply Hs in E; discriminate|reflexivity].
    + intros env. cbn [eval]. destruct (eval Rnum fresh use env e); reflexivity.
  - exists (fun t => Ok t). intros e He. exists e. split; [reflexivity|]. intros env. destruct (eval Rnum fresh use env e); reflexivity.
Qed.

(** ---- assignment ---- *)
Lemma free_all_ok {T} ps (st : @store T) : alive st ps -> NoDup ps ->
  exists st', free_all ps st = Ok st' /\ length st' = length st /\ (forall p, ~ In p ps -> deref st' p = deref st p) /\ (forall p, In p ps -> deref st' p = UB).
Proof.
  revert st. induction ps as [|p ps IH]; intros st Ha Hn; cbn [free_all].
  - exists st. split; [reflexivity|]. split; [reflexivity|]. split; [auto|intros p []].
  - inversion Hn as [|? ? Hp Hn']; subst. destruct (Ha p (or_introl eq_refl)) as [v Ev]. unfold free. rewrite Ev. cbn [bind].
    assert (Hd : forall q, q <> p -> deref (set_nth p None st) q = deref st q) by (intros q Hq; unfold deref; now rewrite nth_error_set_nth_neq by auto).
    assert (Lp : p < length st) by (eapply deref_lt; eauto).
    destruct (IH (set_nth p None st)) as (st' & E & L & H1 & H2); auto.
    { intros q Hq. destruct (Ha q (or_intror Hq)) as [u Eu]. exists u. rewrite Hd; auto. intros ->. contradiction. }
    exists st'. split; [exact E|]. split; [now rewrite L, length_set_nth|]. split.
    + intros q Hq. cbn in Hq. rewrite H1 by tauto. apply Hd. intros ->. tauto.
    + intros q [<-|Hq]; [|auto]. rewrite H1 by exact Hp. unfold deref. now rewrite nth_error_set_nth_eq by exact Lp.
Qed.

(** Assigning one mlp to another: the old parameters of the target are deleted, its new ones
    are copies of the source's, which keeps its own; the target then computes the same.
    Assigning an mlp to itself changes nothing. *)
Lemma C45_mlp_assign_lemma :
  forall (T : Type) (N : num T) same fresh use (this other : @mlp T) st,
    alive st (mlp_variables this) -> alive st (mlp_variables other) -> NoDup (mlp_variables this) ->
    (forall p, In p (mlp_variables this) -> ~ In p (mlp_variables other)) ->
    Forall (fun a => by_value N fresh use (snd a)) (m_layers other) ->
    mlp_assign true this this st = Ok (this, st) /\
    exists m' st', mlp_assign false this other st = Ok (m', st') /\
      m_scope m' = m_scope other /\ m_nin m' = m_nin other /\ m_nout m' = m_nout other /\
      (forall p, In p (mlp_variables this) -> deref st' p = UB) /\
      (forall p, p < length st -> ~ In p (mlp_variables this) -> deref st' p = deref st p) /\
      NoDup (mlp_variables m') /\
      Forall2 (fun p q => length st <= q /\ exists a b, deref st p = Ok a /\ deref st' q = Ok b /\ same_param a b) (mlp_variables other) (mlp_variables m') /\
      forall env input in_shape, (forall p, In p (mlp_variables other) \/ In p (mlp_variables m') -> holds st' env p) ->
        output_value N same fresh use env m' input in_shape = output_value N same fresh use env other input in_shape.
Proof.
  intros T N same fresh use this other st At Ao Hn Hd Hb. split; [reflexivity|]. unfold mlp_assign, mlp_delete.
  destruct (free_all_ok _ st At Hn) as (st1 & E1 & L1 & H1 & H2). rewrite E1. cbn [bind].
  assert (Ao1 : alive st1 (mlp_variables other)).
  { intros p Hp. destruct (Ao p Hp) as [v Ev]. exists v. rewrite H1; auto. intros Hp'. exact (Hd p Hp' Hp). }
  destruct (mlp_copy_ok (m_scope other) (m_layers other) 0 st1 Ao1) as (ls & st' & E & F & C). rewrite E. cbn [bind fst snd].
  pose proof C as ((x & X) & Nd & F2). eexists _, _. split; [reflexivity|]. cbn [m_scope m_nin m_nout]. do 3 (split; [reflexivity|]).
  assert (Old : forall p, p < length st -> deref st' p = deref st1 p).
  { intros p Hp. rewrite X. unfold deref. rewrite nth_error_app1 by lia. reflexivity. }
  split. { intros p Hp. destruct (At p Hp) as [v Ev]. rewrite Old by (eapply deref_lt; eauto). auto. }
  split. { intros p Hp Hq. rewrite Old by exact Hp. auto. }
  split; [exact Nd|]. split.
  - eapply F2_imp; [|exact F2]. intros p q Hp _ (Hl & a & b & A & B & S). split; [lia|]. exists a, b. split; [|auto]. rewrite <- H1; [exact A|]. intros Hp'. exact (Hd p Hp' Hp).
  - intros env input s H. unfold output_value, mlp_prop_up. cbn [m_nin m_layers]. destruct (check_input (m_nin other) s); cbn [bind]; try reflexivity. symmetry.
    apply fold_eq; auto. apply (copied_env st1 st'); auto.
Qed.

(** Deleting a layer deletes exactly its parameters. Copy-assigning: nothing for the same
    object; otherwise the target's parameters are deleted and replaced by new copies of the
    source's, in the same order; the target keeps its scope. Move-assigning: the target's
    parameters are deleted, it then has the source's own (not copies), the source none.
    Moving: the same without anything to delete. *)
Lemma C45_fc_layer_assign_lemma :
  forall (T : Type) (this other : fc_layer) (st : @store T),
    alive st (fc_variables this) -> alive st (fc_variables other) -> NoDup (fc_variables this) ->
    (forall p, In p (fc_variables this) -> ~ In p (fc_variables other)) ->
    (exists st', fc_delete this st = Ok st' /\
      (forall p, In p (fc_variables this) -> deref st' p = UB) /\ (forall p, ~ In p (fc_variables this) -> deref st' p = deref st p)) /\
    fc_assign true this this st = Ok (this, st) /\
    (exists l' st', fc_assign false this other st = Ok (l', st') /\ fc_scope l' = fc_scope this /\
      (forall p, In p (fc_variables this) -> deref st' p = UB) /\
      (forall p, p < length st -> ~ In p (fc_variables this) -> deref st' p = deref st p) /\
      NoDup (fc_variables l') /\
      Forall2 (fun p q => length st <= q /\ exists a b, deref st p = Ok a /\ deref st' q = Ok b /\ same_param a b) (fc_variables other) (fc_variables l')) /\
    fc_move_assign true this this st = Ok (this, this, st) /\
    (exists l' old st', fc_move_assign false this other st = Ok (l', old, st') /\ fc_scope l' = fc_scope this /\
      fc_variables l' = fc_variables other /\ fc_variables old = [] /\
      (forall p, In p (fc_variables this) -> deref st' p = UB) /\ (forall p, ~ In p (fc_variables this) -> deref st' p = deref st p)) /\
    (exists l' old, fc_move this = (l', old) /\ fc_scope l' = fc_scope this /\ fc_variables l' = fc_variables this /\ fc_variables old = []).
Proof.
  intros T this other st At Ao Hn Hd. unfold fc_assign, fc_move_assign, fc_delete.
  destruct (free_all_ok _ st At Hn) as (st1 & E1 & L1 & H1 & H2).
  split; [exists st1; auto|]. split; [reflexivity|]. rewrite E1. cbn [bind]. split.
  - assert (Ao1 : alive st1 (fc_variables other)).
    { intros p Hp. destruct (Ao p Hp) as [v Ev]. exists v. rewrite H1; auto. intros Hp'. exact (Hd p Hp' Hp). }
    destruct (fc_copy_ok (fc_scope this) (fc_wb other) 0 st1 Ao1) as (wb' & st' & E & F & C). rewrite E. cbn [bind fst snd].
    pose proof C as ((x & X) & Nd & F2). eexists _, _. split; [reflexivity|]. split; [reflexivity|].
    assert (Old : forall p, p < length st -> deref st' p = deref st1 p).
    { intros p Hp. rewrite X. unfold deref. rewrite nth_error_app1 by lia. reflexivity. }
    split. { intros p Hp. destruct (At p Hp) as [v Ev]. rewrite Old by (eapply deref_lt; eauto). auto. }
    split. { intros p Hp Hq. rewrite Old by exact Hp. auto. }
    split; [exact Nd|]. eapply F2_imp; [|exact F2]. intros p q Hp _ (Hl & a & b & A & B & S). split; [lia|]. exists a, b. split; [|auto]. rewrite <- H1; [exact A|]. intros Hp'. exact (Hd p Hp' Hp).
  - split; [reflexivity|]. split; [|do 2 eexists; split; [reflexivity|]; auto]. do 3 eexists. split; [reflexivity|]. auto.
Qed.

(** Moving an mlp: the new object has the same parameters (not copies), the old one none. *)
Lemma C45_mlp_move_lemma :
  forall (T : Type) (N : num T) same fresh use env (m : @mlp T) input in_shape,
    let '(m', old) := mlp_move m in
    mlp_variables m' = mlp_variables m /\ m_nin m' = m_nin m /\ m_nout m' = m_nout m /\ mlp_variables old = [] /\
    output_value N same fresh use env m' input in_shape = output_value N same fresh use env m input in_shape.
Proof. intros. cbn. auto. Qed.

(** ---- rbm ---- *)
Lemma rbm_copy_ok {T} scope nh (r : rbm) w hb vb (st : @store T) : rbm_variables r = [Some w; Some hb; Some vb] -> alive st [w; hb; vb] ->
  exists w' hb' vb' st', rbm_copy scope nh r st = Ok (mkRbm scope (r_nin r) nh (Some w') (Some hb') (Some vb'), st') /\ copied st st' [w; hb; vb] [w'; hb'; vb'].
Proof.
  intros Hv Ha. unfold rbm_variables in Hv. injection Hv as E1 E2 E3. unfold rbm_copy. rewrite E1, E2, E3. cbn [ptr_of bind].
  destruct (Ha w) as [v1 D1]; [cbn; auto|]. destruct (Ha hb) as [v2 D2]; [cbn; auto|]. destruct (Ha vb) as [v3 D3]; [cbn; auto|].
  rewrite D1. cbn [bind alloc]. rewrite (deref_app _ _ _ _ D2). cbn [bind]. rewrite (deref_app _ _ _ _ (deref_app _ _ _ _ D3)). cbn [bind].
  do 4 eexists. split; [reflexivity|].
  assert (R : forall v : @var T, same_param v v) by (intros; repeat split).
  pose proof (copied_one st w v1 v1 D1 (R _)) as C1.
  pose proof (copied_one _ hb v2 v2 (deref_app _ [Some v1] _ _ D2) (R _)) as C2.
  pose proof (copied_one _ vb v3 v3 (deref_app _ [Some v2] _ _ (deref_app _ [Some v1] _ _ D3)) (R _)) as C3.
  assert (A2 : alive st [hb]) by (intros p [<-|[]]; eauto). assert (A3 : alive st [vb]) by (intros p [<-|[]]; eauto).
  exact (copied_app _ _ _ _ _ _ _ A3 (copied_app _ _ _ _ _ _ _ A2 C1 C2) C3).
Qed.

(** Cloning an rbm copies its parameters; finding: the size of its hidden layer is not copied,
    get_noutput of the clone is never set. *)
Lemma C45_rbm_clone_lemma :
  forall (T : Type) (r : rbm) w hb vb scope (st : @store T), rbm_variables r = [Some w; Some hb; Some vb] -> alive st [w; hb; vb] ->
    exists r' w' hb' vb' st', rbm_clone r scope st = Ok (r', st') /\ rbm_variables r' = [Some w'; Some hb'; Some vb'] /\ r_nin r' = r_nin r /\
      copied st st' [w; hb; vb] [w'; hb'; vb'] /\ r_nhidden r' = None.
Proof.
  intros T r w hb vb scope st Hv Ha. unfold rbm_clone. destruct (rbm_copy_ok (copied_scope (r_scope r) scope) None r w hb vb st Hv Ha) as (w' & hb' & vb' & st' & E & C).
  exists (mkRbm (copied_scope (r_scope r) scope) (r_nin r) None (Some w') (Some hb') (Some vb')), w', hb', vb', st'.
  split; [exact E|]. split; [reflexivity|]. split; [reflexivity|]. split; [exact C|reflexivity].
Qed.

(** Finding: assigning one rbm to another does nothing at all, and assigning an rbm to itself
    deletes its parameters and then copies from null pointers. *)
Lemma C45_rbm_assign_refuted_lemma :
  (forall (T : Type) (this other : rbm) (st : @store T), rbm_assign false this other st = Ok (this, st)) /\
  (forall (T : Type) (r : rbm) w hb vb (st : @store T), rbm_variables r = [Some w; Some hb; Some vb] -> NoDup [w; hb; vb] -> alive st [w; hb; vb] ->
     rbm_assign true r r st = UB).
Proof.
  split; [reflexivity|]. intros T r w hb vb st Hv Hn Ha. unfold rbm_variables in Hv. injection Hv as E1 E2 E3.
  destruct (free_all_ok _ st Ha Hn) as (st' & E & _). cbn [free_all] in E. unfold rbm_assign, rbm_delete. rewrite E1, E2, E3. cbn [free_ptr].
  destruct (free w st) as [s1| | |]; cbn [bind] in *; try discriminate. destruct (free hb s1) as [s2| | |]; cbn [bind] in *; try discriminate.
  destruct (free vb s2) as [s3| | |]; cbn [bind] in *; try discriminate. reflexivity.
Qed.

(** ---- db_net ---- *)
Definition rbm_alive {T} (st : @store T) (r : rbm) : Prop := exists w hb vb, rbm_variables r = [Some w; Some hb; Some vb] /\ alive st [w; hb; vb].

Lemma db_copy_ok {T} scope rs i (st : @store T) : Forall (rbm_alive st) rs ->
  exists rs' st', db_copy_from scope rs i st = Ok (rs', st') /\ length rs' = length rs /\ (exists x, st' = st ++ x) /\ Forall (rbm_alive st') rs'.
Proof.
  revert i st. induction rs as [|r rs IH]; intros i st Ha; cbn [db_copy_from].
  - exists [], st. split; [reflexivity|]. split; [reflexivity|]. split; [exists []; now rewrite app_nil_r|constructor].
  - inversion Ha as [|? ? (w & hb & vb & V & A) Ha']; subst.
    destruct (C45_rbm_clone_lemma T r w hb vb (scope ++ ":rbm_" ++ decimal i)%string st V A) as (r' & w' & hb' & vb' & st1 & E & V' & _ & C & _).
    rewrite E. cbn [bind fst snd]. pose proof C as ((x & X) & _ & F).
    destruct (IH (S i) st1) as (rs' & st2 & E2 & L & (y & Y) & A2).
    { eapply Forall_impl; [|exact Ha']. intros a (w1 & h1 & v1 & V1 & A1). exists w1, h1, v1. split; [exact V1|]. rewrite X. now apply alive_app. }
    rewrite E2. cbn [bind fst snd]. do 2 eexists. split; [reflexivity|]. split; [cbn; lia|]. split; [exists (x ++ y); now rewrite Y, X, app_assoc|].
    constructor; [|exact A2]. exists w', hb', vb'. split; [exact V'|]. intros q Hq. destruct (F2_in_r _ _ _ _ F Hq) as (p & _ & _ & a & b & _ & D & _). exists b. rewrite Y. now apply deref_app.
Qed.

Lemma db_fold_ok (rs : list rbm) st e : Forall (rbm_alive (T := R) st) rs -> exists x, db_fold Rnum rs e = Ok x.
Proof.
  revert e. induction rs as [|r rs IH]; intros e Ha; cbn [db_fold]; [eauto|]. inversion Ha as [|? ? (w & hb & vb & V & A) Ha']; subst.
  unfold rbm_variables in V. injection V as E1 E2 _. unfold rbm_prop_up. rewrite E1, E2. cbn [ptr_of bind]. unfold mk_axb, mk_mat. cbn [cview_of bind].
  rewrite sigmoid_node by exact I. cbn [bind]. now apply IH.
Qed.

(** Finding: a clone (or the target of an assignment, or a moved-to object) of a db_net has no
    output layer: whatever the network, prop_up on an input of the right shape, get_variables
    (so also save and initialize) follow a null pointer; so does copying a gd_net that trains
    one. *)
Lemma C45_db_net_clone_refuted_lemma :
  forall same (d : db_net) scope (st : @store R), Forall (rbm_alive st) (d_layers d) ->
    (exists d' st', db_clone d scope st = Ok (d', st') /\ length (d_layers d') = length (d_layers d) /\ d_nin d' = d_nin d /\ d_nout d' = d_nout d /\
       db_variables d' = UB /\ forall e r, db_prop_up Rnum same d' e [d_nin d; r] = UB) /\
    (let '(d', _) := db_move d in db_variables d' = UB /\ forall e r, db_prop_up Rnum same d' e [d_nin d; r] = UB).
Proof.
  intros same d scope st Ha. split.
  - unfold db_clone. destruct (db_copy_ok (copied_scope (d_scope d) scope) (d_layers d) 0 st Ha) as (rs & st' & E & L & _ & A). rewrite E. cbn [bind fst snd].
    do 2 eexists. split; [reflexivity|]. cbn [d_layers d_nin d_nout d_log db_variables]. do 4 (split; [auto|]). intros e r.
    unfold db_prop_up. cbn [d_layers d_nin d_log]. rewrite (check_input_ok _ _ (compat_batch (d_nin d) r)). cbn [bind].
    destruct (db_fold_ok rs st' e A) as [x ->]. reflexivity.
  - cbn. split; [reflexivity|]. intros e r. unfold db_prop_up. cbn [d_layers d_nin d_log]. rewrite (check_input_ok _ _ (compat_batch (d_nin d) r)). cbn [bind].
    destruct (db_fold_ok (d_layers d) st e Ha) as [x ->]. reflexivity.
Qed.

(** Copying a gd_net whose network is an mlp: its output is, for the same parameter values and
    the same contents of the placeholder, that of the original. *)
Lemma C45_gd_net_copy_lemma :
  forall same fresh use (m : @mlp R) scope (st : @store R) (t_in t_in' : nat),
    alive st (mlp_variables m) -> Forall (fun a => by_value Rnum fresh use (snd a)) (m_layers m) ->
    exists c st', compound_clone (CMlp m) scope st = Ok (c, st') /\
      forall env in_shape, (forall p, In p (mlp_variables m) \/ (exists m', c = CMlp m' /\ In p (mlp_variables m')) -> holds st' env p) ->
        env t_in' = env t_in ->
        (x <- gd_output Rnum same c t_in' in_shape ;; eval Rnum fresh use env x) =
        (x <- gd_output Rnum same (CMlp m) t_in in_shape ;; eval Rnum fresh use env x).
Proof.
  intros same fresh use m scope st t_in t_in' Ha Hb. destruct (mlp_clone_ok m scope st Ha) as (m' & st' & E & E1 & E2 & _ & F & C).
  unfold compound_clone. rewrite E. cbn [bind fst snd]. do 2 eexists. split; [reflexivity|]. intros env s H Hin.
  unfold gd_output. cbn [prop_up]. unfold mlp_prop_up. rewrite E1. destruct (check_input (m_nin m) s); cbn [bind]; try reflexivity. symmetry.
  apply fold_eq; auto; [|cbn [eval]; now rewrite Hin]. apply (copied_env st st'); auto. intros p Hp. apply H. right. eauto.
Qed.

(** ---- dq_net ---- *)

(** A copied dq_net has the parameters, the counters and the values of both networks of the
    original, and chooses the same actions. Finding: its replay memory is empty (and after
    assignment it is still that of the target), so that training it has no effect where the
    original learns. *)
Lemma C45_dqn_copy_lemma :
  forall d d0 : dqn,
    d_par (dq_copy d) = d_par d /\ source_vars (dq_copy d) = source_vars d /\ target_vars (dq_copy d) = target_vars d /\
    actions_executed (dq_copy d) = actions_executed d /\ iteration (dq_copy d) = iteration d /\
    n_store_called (dq_copy d) = n_store_called d /\ n_train_called (dq_copy d) = n_train_called d /\
    (forall r1 r2 greedy, (x <- action (dq_copy d) r1 r2 greedy ;; Ok (snd x)) = (x <- action d r1 r2 greedy ;; Ok (snd x))) /\
    source_vars (dq_assign false d0 d) = source_vars d /\ target_vars (dq_assign false d0 d) = target_vars d /\ dq_assign true d d = d.
Proof.
  intros d d0. cbn. repeat split. intros r1 r2 greedy. unfold action, linear_annealing. cbn [d_par d_ninput d_noutput actions_executed dq_copy].
  destruct (Rltb _ _); [reflexivity|]. destruct (negb _); cbn [assert_ bind]; [|reflexivity]. destruct (rd greedy 0); reflexivity.
Qed.
(** Training the original samples its memory and updates its network; training the copy at the
    same moment returns without having done anything. *)
Lemma C45_dqn_copy_forgets_refuted_lemma :
  (forall d : dqn, experiences (dq_copy d) = []) /\ (forall d0 d : dqn, experiences (dq_assign false d0 d) = experiences d0) /\
  (forall fresh upd (d : dqn) indices, train_interval (d_par d) <> 0 -> n_train_called d mod train_interval (d_par d) = 0 -> 0 < mini_batch_size (d_par d) ->
     train fresh upd (dq_copy d) indices = Ok (dq_copy d) /\
     (mini_batch_size (d_par d) <= length (experiences d) -> forall d', train fresh upd d indices = Ok d' ->
        iteration d' = S (iteration d) /\ exists b, fed d' = Some b /\ source_vars d' = upd b (source_vars d) (target_vars d))) /\
  (exists fresh upd d d' indices, train_interval (d_par d) <> 0 /\ n_train_called d mod train_interval (d_par d) = 0 /\
     0 < mini_batch_size (d_par d) <= length (experiences d) /\ train fresh upd d indices = Ok d').
Proof.
  split; [reflexivity|]. split; [reflexivity|]. split.
  - intros fresh upd d indices Hi Hm Hb. unfold train. cbn [d_par n_train_called dq_copy experiences length].
    assert (U : umod (n_train_called d) (train_interval (d_par d)) = Ok 0) by (unfold umod; destruct (train_interval (d_par d)); [contradiction|now rewrite Hm]).
    rewrite U. cbn [bind Nat.eqb]. assert (B : (0 <? mini_batch_size (d_par d)) = true) by now apply Nat.ltb_lt. rewrite B. split; [reflexivity|].
    intros Hl d'. assert (B' : (length (experiences d) <? mini_batch_size (d_par d)) = false) by (apply Nat.ltb_ge; lia). rewrite B'.
    destruct (random_sample d indices) as [sm| | |]; cbn [bind]; try discriminate. destruct (make_batch _ _ sm) as [b| | |]; cbn [bind]; try discriminate.
    destruct (target_updates _ _ _ _) as [tg| | |]; cbn [bind]; try discriminate. intros [= <-]. cbn. split; [reflexivity|]. exists b. auto.
  - exists (fun _ => 0%R), (fun _ s _ => s), (mkD (mkP 1 0 0 0 1 1 1 10) 1 1 0 0 0 0 [mkE [0%R] 0 0%R []] [] [] None).
    eexists. exists [0]. cbn [d_par train_interval n_train_called mini_batch_size experiences length].
    split; [lia|]. split; [reflexivity|]. split; [lia|]. cbv -[IZR]. reflexivity.
Qed.

(** A two-layer mlp over the integers, cloned: the hypotheses hold. *)
Lemma C45_nonvacuous_lemma :
  exists (m : @mlp Z) st, mlp_new Znum Z.of_nat 2 [(3, mk_id); (1, mk_id)] "net"%string [] = (m, st) /\
    alive st (mlp_variables m) /\ NoDup (mlp_variables m) /\ length (mlp_variables m) = 4 /\
    (forall fresh use, Forall (fun a => by_value Znum fresh use (snd a)) (m_layers m)) /\
    (exists m' st', mlp_clone m ""%string st = Ok (m', st') /\ m_scope m' = "net_cpy"%string /\ length st' = 8 /\ mlp_variables m' = [4; 5; 6; 7]).
Proof.
  do 2 eexists. split; [reflexivity|]. cbv [m_layers]. split; [|split; [|split; [reflexivity|split]]].
  - intros p Hp. cbn in Hp. destruct Hp as [<-|[<-|[<-|[<-|[]]]]]; eexists; reflexivity.
  - cbn. repeat (constructor; [cbn; intuition discriminate|]). constructor.
  - intros fresh use.
    assert (B : by_value Znum fresh use mk_id).
    { exists (fun t => Ok t). intros e He. exists e. split; [reflexivity|]. intros env. destruct (eval Znum fresh use env e); reflexivity. }
    repeat constructor; exact B.
  - do 2 eexists. split; [reflexivity|]. split; [reflexivity|]. split; reflexivity.
Qed.
