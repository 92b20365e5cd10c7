(** Building the graph of an expression. *)
From Coq Require Import Reals.
From Verif Require Import Common ShapeModel ElemModel RealNum GradModel GroupModel EvalModel EvalSpec EvalProofs TrainSpec TrainProofs CallModel CallSpec CallProofs CallReal.

Section B.
Context (fresh : nat -> R) (use : bool).
Context (ord : list (enode (tens R)) -> nat -> list nat) (top : list (enode (tens R)) -> list nat -> option nat).
Context (Hord : valid_order ord) (Htop : valid_top top).
Local Notation graph := (estate (tens R)).
Implicit Types s : graph.
Local Notation calm := (calm ord top).
Local Notation gev := (geval Rnum fresh use INR).

Fixpoint gbound (e : @gexpr R) : nat :=
  match e with
  | GVar v => S v
  | GConst _ => 0
  | GUn _ a | GTr a | GSum _ a | GMax _ a | GGrp _ a | GSize _ a | GExt _ _ a | GFlip _ a | GNorm a => gbound a
  | GBin _ a b | GAx _ _ _ a b | GEq a b | GMat _ _ a b => Nat.max (gbound a) (gbound b)
  end.
(** variables below [K] are the first nodes, the others are not in the graph *)
Definition place (K M v : nat) : nat := if v <? K then v else v + M.

Lemma applies1_grows s s' n k (P Q : nat -> Prop) : grows s s' -> (forall a, P a -> Q a) -> applies1 fresh use s n k P -> applies1 fresh use s' n k Q.
Proof. intros G H (a & f & [d Ho] & Hf & Ha). exists a, f. split; [exists d; eapply grows_node; eauto|]. auto. Qed.
Lemma applies2_grows s s' n k (P P' Q Q' : nat -> Prop) : grows s s' -> (forall a, P a -> P' a) -> (forall a, Q a -> Q' a) -> applies2 fresh use s n k P Q -> applies2 fresh use s' n k P' Q'.
Proof. intros G H H' (a & b & f & [d Ho] & Hf & Ha & Hb). exists a, b, f. split; [exists d; eapply grows_node; eauto|]. auto. Qed.
Lemma gshows_grows loc s s' : grows s s' -> forall e n, gshows fresh use loc s n e -> gshows fresh use loc s' n e.
Proof.
  intros G. induction e; intros n H; cbn [gshows] in *;
    try (eapply applies1_grows; [exact G| |exact H]; cbv beta; auto; fail); try (eapply applies2_grows; [exact G| | |exact H]; cbv beta; auto; fail).
  - exact H.
  - destruct H as (Hl & Hv & Hn). split; [unfold leaf in *; eapply grows_node; eauto|]. split; [|exact Hn]. rewrite <- Hv. now apply (proj2 G).
Qed.

Context (env : nat -> tens R) (K : nat).
Definition based s : Prop := K <= length (nodes s) /\ forall v, v < K -> leaf s v /\ val s v = Some (env v).
Lemma based_grows s s' : based s -> grows s s' -> based s'.
Proof.
  intros [Hk H] G. split; [pose proof (grows_le s s' G); lia|]. intros v Hv. destruct (H v Hv) as [Hl E]. split; [unfold leaf in *; eapply grows_node; eauto|]. rewrite <- E. now apply (proj2 G).
Qed.
Definition is_node (e : @gexpr R) : bool := match e with GVar _ | GConst _ => false | _ => true end.
Definition built s e t s' n : Prop :=
  calm s' /\ grows s s' /\ n < length (nodes s') /\ denotes s' n (Some t) /\ (forall M, length (nodes s') <= M -> gshows fresh use (place K M) s' n e) /\ (is_node e = true -> is_op (nodes s') n = true).

Lemma build1 (k : @gexpr R -> @gexpr R) a s s1 n1 ta t :
  (forall loc s n, gshows fresh use loc s n (k a) = applies1 fresh use s n k (fun m => gshows fresh use loc s m a)) ->
  built s a ta s1 n1 -> gev nothing (k (GConst ta)) = Ok t -> exists s' n, built s (k a) t s' n.
Proof.
  intros Hk (C1 & G1 & L1 & D1 & S1 & _) E.
  destruct (add_op ord top Hord Htop s1 [n1] (fun l => match l with [x] => gresult fresh use (k (GConst x)) | _ => None end) [Some ta] [ta] t C1) as (s' & C' & G' & Ln & On & Dn); auto.
  - discriminate.
  - intros x [<-|[]]. exact L1.
  - unfold gresult. now rewrite E.
  - exists s', (length (nodes s1)). split; [exact C'|]. split; [eapply grows_trans; eauto|]. split; [lia|]. split; [exact Dn|]. split.
    + intros M HM. rewrite Hk. eexists n1, _. split; [exact On|]. split; [reflexivity|]. apply (gshows_grows _ s1 s' G'). apply S1. lia.
    + intros _. destruct On as [d On]. eapply is_op_intro; eauto.
Qed.
Lemma build2 (k : @gexpr R -> @gexpr R -> @gexpr R) a b s s1 n1 s2 n2 ta tb t :
  (forall loc s n, gshows fresh use loc s n (k a b) = applies2 fresh use s n k (fun m => gshows fresh use loc s m a) (fun m => gshows fresh use loc s m b)) ->
  built s a ta s1 n1 -> built s1 b tb s2 n2 -> gev nothing (k (GConst ta) (GConst tb)) = Ok t -> exists s' n, built s (k a b) t s' n.
Proof.
  intros Hk (C1 & G1 & L1 & D1 & S1 & _) (C2 & G2 & L2 & D2 & S2 & _) E.
  assert (Ac : acyclic s1) by (apply (calm_acyclic ord top Hord Htop); exact C1). pose proof (grows_le s1 s2 G2) as Le.
  destruct (add_op ord top Hord Htop s2 [n1; n2] (fun l => match l with [x; y] => gresult fresh use (k (GConst x) (GConst y)) | _ => None end) [Some ta; Some tb] [ta; tb] t C2) as (s' & C' & G' & Ln & On & Dn); auto.
  - discriminate.
  - intros x [<-|[<-|[]]]; [lia|exact L2].
  - constructor; [exact (grows_den s1 s2 G2 Ac n1 _ D1)|]. constructor; [exact D2|constructor].
  - unfold gresult. now rewrite E.
  - exists s', (length (nodes s2)). split; [exact C'|]. split; [eapply grows_trans; [exact G1|]; eapply grows_trans; eauto|]. split; [lia|]. split; [exact Dn|]. split.
    + intros M HM. rewrite Hk. eexists n1, n2, _. split; [exact On|]. split; [reflexivity|]. split; [|apply (gshows_grows _ s2 s' G'); apply S2; lia].
      apply (gshows_grows _ s1 s'); [eapply grows_trans; eauto|]. apply S1. lia.
    + intros _. destruct On as [d On]. eapply is_op_intro; eauto.
Qed.
Lemma build e : forall s, calm s -> based s -> gbound e <= K -> forall t, gev env e = Ok t -> exists s' n, built s e t s' n.
Proof.
  induction e; intros s C Bs Hb t0 E; cbn [gbound] in Hb;
    try (cbn [geval] in E; destruct (gev env e) as [ta| | |] eqn:Ea; try discriminate; cbn [bind] in E; destruct (IHe s C Bs Hb ta eq_refl) as (s1 & n1 & B1); eapply build1; [|exact B1|]; [reflexivity|exact E]);
    try (cbn [geval] in E; destruct (gev env e1) as [ta| | |] eqn:Ea; try discriminate; cbn [bind] in E; destruct (gev env e2) as [tb| | |] eqn:Eb; try discriminate; cbn [bind] in E;
         destruct (IHe1 s C Bs ltac:(lia) ta eq_refl) as (s1 & n1 & B1); pose proof B1 as (C1 & G1 & _);
         destruct (IHe2 s1 C1 (based_grows s s1 Bs G1) ltac:(lia) tb eq_refl) as (s2 & n2 & B2); eapply build2; [|exact B1|exact B2|]; [reflexivity|exact E]).
  - cbn [geval] in E. injection E as <-. destruct Bs as [Hk Bs]. destruct (Bs v) as [Hl Hv]; [lia|]. exists s, v. split; [exact C|]. split; [apply grows_refl|]. split; [lia|]. split; [rewrite <- Hv; now constructor|]. split; [|discriminate].
    intros M _. cbn [gshows]. unfold place. destruct (Nat.ltb_spec v K); [reflexivity|lia].
  - cbn [geval] in E. injection E as <-. destruct (add_leaf ord top Hord Htop s t C) as (s' & C' & G & Ln & Hl & Hv). exists s', (length (nodes s)). split; [exact C'|]. split; [exact G|]. split; [lia|]. split; [rewrite <- Hv; now constructor|]. split; [|discriminate].
    intros M HM. cbn [gshows]. split; [exact Hl|]. split; [exact Hv|]. intros v. destruct Bs as [Hk _]. unfold place. destruct (Nat.ltb_spec v K); lia.
Qed.

(** the leaves *)
Lemma einit_calm : calm einit.
Proof.
  constructor.
  - exists []. split; [reflexivity|constructor].
  - intros v H. unfold is_op in H. destruct v; discriminate.
  - intros v x H. unfold val in H. destruct v; discriminate.
  - reflexivity.
Qed.
End B.

Section L.
Context (fresh : nat -> R) (use : bool).
Context (ord : list (enode (tens R)) -> nat -> list nat) (top : list (enode (tens R)) -> list nat -> option nat).
Context (Hord : valid_order ord) (Htop : valid_top top).
Context (env : nat -> tens R).
Lemma leaves K : exists s, calm ord top s /\ based env K s /\ length (nodes s) = K.
Proof.
  induction K as [|K (s & C & B & L)].
  - exists einit. split; [apply einit_calm|]. split; [|reflexivity]. split; [cbn; lia|]. intros v Hv. lia.
  - destruct (add_leaf ord top Hord Htop s (env K) C) as (s' & C' & G & Ln & Hl & Hv). exists s'. split; [exact C'|]. split; [|lia]. rewrite L in *. split; [lia|].
    intros v Hlt. destruct (Nat.eq_dec v K) as [Q|Ne]; [rewrite Q; auto|]. pose proof (based_grows env K s s' B G) as [_ B']. apply B'. lia.
Qed.
(** several expressions one after the other *)
Lemma builds K (us : list (nat * @gexpr R)) : forall s, calm ord top s -> based env K s -> (forall v u, In (v, u) us -> gbound u <= K /\ exists t, geval Rnum fresh use INR env u = Ok t) ->
  NoDup (map fst us) ->
  exists s' (node : nat -> nat), calm ord top s' /\ grows s s' /\ forall v u, In (v, u) us -> node v < length (nodes s') /\
    (forall t, geval Rnum fresh use INR env u = Ok t -> denotes s' (node v) (Some t)) /\ (forall M, length (nodes s') <= M -> gshows fresh use (place K M) s' (node v) u) /\ (is_node u = true -> is_op (nodes s') (node v) = true).
Proof.
  induction us as [|[v u] us IH]; intros s C B H Nd.
  - exists s, (fun _ => 0). split; [exact C|]. split; [apply grows_refl|]. intros v u [].
  - destruct (H v u (or_introl eq_refl)) as [Hb [t Et]]. destruct (build fresh use ord top Hord Htop env K u s C B Hb t Et) as (s1 & n & C1 & G1 & L1 & D1 & S1 & O1).
    cbn [map fst] in Nd. apply NoDup_cons_iff in Nd as [Nv Nd].
    destruct (IH s1 C1 (based_grows env K s s1 B G1)) as (s' & node & C' & G' & Hn); [intros v' u' Hi; exact (H v' u' (or_intror Hi))|exact Nd|].
    exists s', (fun w => if w =? v then n else node w). split; [exact C'|]. split; [eapply grows_trans; eauto|]. intros v' u' [Q|Q].
    + injection Q as <- <-. rewrite Nat.eqb_refl. pose proof (grows_le s1 s' G') as Le. split; [lia|]. split; [|split].
      * intros t' Et'. rewrite Et in Et'. injection Et' as <-. exact (grows_den s1 s' G' (calm_acyclic ord top Hord Htop s1 C1) n _ D1).
      * intros M HM. apply (gshows_grows fresh use _ s1 s' G'). apply S1. lia.
      * intros Hi. specialize (O1 Hi). destruct (is_op_inv _ _ O1) as (a & g & d & Hx). eapply is_op_intro. eapply grows_node; eauto.
    + assert (v' <> v) by (intros ->; apply (in_map fst) in Q; contradiction). destruct (Nat.eqb_spec v' v) as [|_]; [contradiction|]. now apply Hn.
Qed.
End L.
