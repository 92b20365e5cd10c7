(** The operations on the observer graph. *)
From Coq Require Import Permutation.
From Verif Require Import Common ReactModel ReactSpec ReactProofs.

Definition Same (h h' : heap) : Prop :=
  length h' = length h /\ (forall x, okind (get h' x) = okind (get h x)) /\ (forall x, ophase (get h' x) = ophase (get h x)).
Lemma Same_refl h : Same h h. Proof. repeat split. Qed.
Lemma Same_trans a b c : Same a b -> Same b c -> Same a c.
Proof. intros [A1 [A2 A3]] [B1 [B2 B3]]. repeat split; intros; [congruence|now rewrite B2|now rewrite B3]. Qed.
Lemma Same_aud h x a : Same h (set_aud h x a).
Proof. split; [|split]; intros; now autorewrite with heap. Qed.
Lemma Same_deps h x d : Same h (set_deps h x d).
Proof. split; [|split]; intros; now autorewrite with heap. Qed.

Definition WF (h : heap) : Prop := Inv h none /\ forall x, ophase (get h x) = Live \/ ophase (get h x) = Gone.

Lemma attach_eff h s v idx : ophase (get h s) <> Gone ->
  exists h1, attach h s v idx = Ok h1 /\ Same h h1 /\ (forall x, odeps (get h1 x) = odeps (get h x)) /\
    (forall a b c, link h1 a b c <-> link h a b c \/ (a = s /\ b = v /\ c = idx)).
Proof.
  intros Hs. pose proof (present_lt h s Hs) as Ls. unfold attach. rewrite access_ok by auto. cbn [bind].
  eexists. split; [reflexivity|]. destruct (memp (v, idx) (oaud (get h s))) eqn:E.
  - split; [apply Same_refl|]. split; auto. intros a b c. split; auto. intros [G|[-> [-> ->]]]; auto. now apply memp_iff.
  - split; [apply Same_aud|]. split; [intros; apply deps_set_aud|]. intros a b c. unfold link. destruct (Nat.eq_dec a s) as [->|Hn].
    + rewrite aud_set_aud_same by auto. cbn. split; [intros [G|G]; [inversion G; auto|auto]|intros [G|[_ [-> ->]]]; auto].
    + rewrite aud_set_aud_other by auto. tauto.
Qed.

Lemma detach_simple del h s v idx : ophase (get h s) <> Gone ->
  (exists b c, link h s b c /\ ~ (b = v /\ c = idx)) \/ ~ (ophase (get h s) = Live /\ selfdel (okind (get h s))) ->
  exists h1, detach del h s v idx = Ok h1 /\ Same h h1 /\ (forall x, odeps (get h1 x) = odeps (get h x)) /\
    (forall a b c, link h1 a b c <-> link h a b c /\ ~ (a = s /\ b = v /\ c = idx)).
Proof.
  intros Hs H. pose proof (present_lt h s Hs) as Ls. unfold detach. rewrite access_ok by auto. cbn [bind].
  set (a := filter _ _). set (ha := set_aud h s a).
  assert (Lc : forall x y z, link ha x y z <-> link h x y z /\ ~ (x = s /\ y = v /\ z = idx)) by (intros; now apply link_cut).
  exists ha. split; [|split; [apply Same_aud|split; [intros; apply deps_set_aud|exact Lc]]].
  destruct a as [|p a'] eqn:Ea; auto. destruct H as [[b [c [L Hbc]]]|H].
  - exfalso. assert (G : link ha s b c) by (apply Lc; split; auto; tauto). unfold link, ha in G. rewrite aud_set_aud_same in G by auto. try rewrite Ea in G. destruct G.
  - destruct (selfdel_noparent del ha s) as [[E1 [E2 _]]|[_ E]]; auto. unfold ha in E1, E2. rewrite phase_set_aud in E1. rewrite kind_set_aud in E2. tauto.
Qed.

Lemma NT_snoc d s : NT (d ++ [Some s]).
Proof. right. exists s. rewrite app_length. cbn [length]. replace (length d + 1 - 1) with (length d) by lia. rewrite nth_error_app2 by lia. now rewrite Nat.sub_diag. Qed.
Lemma nth_snoc {A} (d : list A) x i : nth_error (d ++ [x]) i = if i =? length d then Some x else nth_error d i.
Proof.
  destruct (Nat.eqb_spec i (length d)) as [->|H].
  - rewrite nth_error_app2 by lia. now rewrite Nat.sub_diag.
  - destruct (Nat.lt_ge_cases i (length d)); [now rewrite nth_error_app1|].
    rewrite nth_error_app2 by lia. destruct (i - length d) as [|[|]] eqn:E; try lia; cbn; symmetry; apply nth_error_None; lia.
Qed.

Lemma add_ok h o s : Inv h none -> alive h o -> has_obs (okind (get h o)) = true -> (okind (get h o) = KVar -> odeps (get h o) = []) -> node h s ->
  exists h', add_dependency h o (Some s) = Ok h' /\ Inv h' none /\ Same h h' /\
    (forall x, odeps (get h' x) = if x =? o then odeps (get h o) ++ [Some s] else odeps (get h x)).
Proof.
  intros I Ho Hk Hv [Hs Hss]. unfold alive in *. assert (Lo : o < length h) by (apply present_lt; congruence).
  unfold add_dependency. rewrite access_ok by congruence. cbn [bind].
  destruct (attach_eff h s o (length (odeps (get h o)))) as [h1 [E1 [S1 [D1 L1]]]]; [congruence|]. rewrite E1. cbn [bind].
  destruct S1 as [Sl [Sk Sp]]. rewrite access_ok by (rewrite Sp; congruence). cbn [bind]. eexists. split; [reflexivity|].
  set (h' := set_deps h1 o _).
  assert (D' : forall x, odeps (get h' x) = if x =? o then odeps (get h o) ++ [Some s] else odeps (get h x)).
  { intros x. unfold h'. destruct (Nat.eqb_spec x o) as [->|Hn]; [rewrite deps_set_deps_same by lia; now rewrite D1|rewrite deps_set_deps_other by auto; apply D1]. }
  assert (Dp : forall x i t, dep h' x i t <-> dep h x i t \/ (x = o /\ i = length (odeps (get h o)) /\ t = s)).
  { intros x i t. unfold dep. rewrite D'. destruct (Nat.eqb_spec x o) as [->|Hn]; [|tauto]. rewrite nth_snoc. destruct (Nat.eqb_spec i (length (odeps (get h o)))) as [->|Hi].
    - split; [intros G; right; split; auto; split; auto; congruence|]. intros [G|[_ [_ ->]]]; auto. exfalso.
      assert (length (odeps (get h o)) < length (odeps (get h o))) by (apply nth_error_Some; congruence). lia.
    - tauto. }
  assert (Sm : Same h h') by (apply (Same_trans _ h1); [repeat split; auto|apply Same_deps]).
  split; [|split; auto]. destruct Sm as [Ml [Mk Mp]]. constructor.
  - intros x i t _. rewrite Dp. unfold h'. rewrite link_set_deps, L1, (i_mirror h none I) by auto. tauto.
  - intros x. rewrite D'. destruct (x =? o); [apply NT_snoc|apply I].
  - intros x i t G. rewrite Mk, Mp. apply Dp in G. destruct G as [G|[-> _]]; [now apply (i_obs h none I x i t)|]. split; auto. congruence.
  - intros x y z G. rewrite Mk, Mp. unfold h' in G. rewrite link_set_deps in G. apply L1 in G. destruct G as [G|[-> _]]; [now apply (i_sub h none I x y z)|]. split; auto. congruence.
  - intros x i [].
  - intros x. rewrite Mk, D'. intros G. destruct (Nat.eqb_spec x o) as [->|Hn]; [rewrite Hv by auto; cbn; lia|now apply I].
Qed.

Definition somes (l : list (option nat)) : list (option nat) := filter (fun d => match d with Some _ => true | None => false end) l.

Lemma adds_ok o l : forall h, Inv h none -> alive h o -> has_obs (okind (get h o)) = true ->
  (okind (get h o) = KVar -> length (odeps (get h o)) + length l <= 1) -> (forall s, In (Some s) l -> node h s) ->
  exists h', each (fun h dep => match dep with Some s => add_dependency h o (Some s) | None => Ok h end) l h = Ok h' /\ Inv h' none /\ Same h h' /\
    (forall x, odeps (get h' x) = if x =? o then odeps (get h o) ++ somes l else odeps (get h x)).
Proof.
  induction l as [|[s|] l IH]; intros h I Ho Hk Hv Hl.
  - exists h. split; auto. split; auto. split; [apply Same_refl|]. intros x. cbn. destruct (Nat.eqb_spec x o) as [->|]; auto. now rewrite app_nil_r.
  - cbn [each]. destruct (add_ok h o s) as [h1 [E1 [I1 [S1 D1]]]]; auto.
    + intros G. specialize (Hv G). cbn [length] in Hv. destruct (odeps (get h o)); auto. cbn in Hv. lia.
    + apply Hl. now left.
    + rewrite E1. cbn [bind]. assert (S1' := S1). destruct S1' as [Sl [Sk Sp]]. destruct (IH h1) as [h2 [E2 [I2 [S2 D2]]]]; auto.
      * unfold alive. now rewrite Sp.
      * now rewrite Sk.
      * rewrite Sk. intros G. rewrite D1, Nat.eqb_refl, app_length. specialize (Hv G). cbn [length] in *. lia.
      * intros t Ht. destruct (Hl t) as [A B]; [now right|]. split; [unfold alive; now rewrite Sp|now rewrite Sk].
      * exists h2. split; auto. split; auto. split; [eapply Same_trans; eauto|]. intros x. rewrite D2. rewrite !D1, Nat.eqb_refl.
        destruct (x =? o); auto. cbn. now rewrite <- app_assoc.
  - cbn [each bind]. destruct (IH h) as [h2 [E2 [I2 [S2 D2]]]]; auto.
    + intros G. specialize (Hv G). cbn [length] in Hv. lia.
    + intros t Ht. apply Hl. now right.
    + exists h2. auto.
Qed.

Lemma get_alloc h k x : get (alloc h k) x = if x =? length h then mkobj k Live [] [] else get h x.
Proof.
  unfold get, alloc. destruct (Nat.eqb_spec x (length h)) as [->|Hn]; [rewrite app_nth2 by lia; now rewrite Nat.sub_diag|].
  destruct (Nat.lt_ge_cases x (length h)); [now rewrite app_nth1|]. rewrite !nth_overflow; auto. rewrite app_length. cbn. lia.
Qed.
Lemma get_out h x : length h <= x -> get h x = nobody.
Proof. intros. unfold get. now apply nth_overflow. Qed.
Lemma dep_alloc h k o i s : dep (alloc h k) o i s <-> dep h o i s.
Proof.
  unfold dep. rewrite get_alloc. destruct (Nat.eqb_spec o (length h)) as [->|]; [|tauto]. rewrite get_out by lia. cbn. tauto.
Qed.
Lemma link_alloc h k s o i : link (alloc h k) s o i <-> link h s o i.
Proof.
  unfold link. rewrite get_alloc. destruct (Nat.eqb_spec s (length h)) as [->|]; [|tauto]. rewrite get_out by lia. cbn. tauto.
Qed.
Lemma alive_lt h x : alive h x -> x < length h.
Proof. intros H. apply present_lt. unfold alive in H. congruence. Qed.
Lemma alive_alloc h k x : alive h x -> alive (alloc h k) x.
Proof. intros H. unfold alive. rewrite get_alloc. pose proof (alive_lt h x H). destruct (Nat.eqb_spec x (length h)); [lia|exact H]. Qed.
Lemma kind_alloc h k x : alive h x -> okind (get (alloc h k) x) = okind (get h x).
Proof. intros H. rewrite get_alloc. pose proof (alive_lt h x H). destruct (Nat.eqb_spec x (length h)); [lia|reflexivity]. Qed.

Lemma alloc_ok h k : WF h -> WF (alloc h k).
Proof.
  intros [I W]. split.
  - constructor.
    + intros o i s _. rewrite dep_alloc, link_alloc. now apply I.
    + intros o. rewrite get_alloc. destruct (o =? length h); [left; intros [|i] s; discriminate|apply I].
    + intros o i s. rewrite dep_alloc. intros G. pose proof (i_obs h none I o i s G) as [A B]. rewrite get_alloc.
      destruct (Nat.eqb_spec o (length h)) as [->|]; [now rewrite get_out in B by lia|auto].
    + intros s o i. rewrite link_alloc. intros G. pose proof (i_sub h none I s o i G) as [A B]. rewrite get_alloc.
      destruct (Nat.eqb_spec s (length h)) as [->|]; [now rewrite get_out in B by lia|auto].
    + intros o i [].
    + intros o. rewrite get_alloc. destruct (o =? length h); [cbn; lia|apply I].
  - intros x. rewrite get_alloc. destruct (x =? length h); [now left|apply W].
Qed.

Lemma WF_same h h' : WF h -> Same h h' -> Inv h' none -> WF h'.
Proof. intros [_ W] [_ [_ S]] I. split; auto. intros x. rewrite S. apply W. Qed.

Lemma construct_ok h k deps : WF h -> legal h (ONew k deps) ->
  exists h', construct h k deps = Ok h' /\ WF h' /\
    get h' (length h) = mkobj k Live (map Some deps) (oaud (get h' (length h))) /\ (forall x, x <> length h -> odeps (get h' x) = odeps (get h x)).
Proof.
  intros W [Hd [Ho Hv]]. unfold construct. pose proof (alloc_ok h k W) as Wa. set (o := length h).
  assert (Lo : get (alloc h k) o = mkobj k Live [] []) by (rewrite get_alloc; unfold o; now rewrite Nat.eqb_refl).
  assert (C : deps = [] \/ has_obs k = true) by (destruct (has_obs k); auto). destruct C as [->|Hk].
  - exists (alloc h k). split; auto. split; auto. split; [now rewrite Lo|]. intros x Hx. rewrite get_alloc. destruct (Nat.eqb_spec x (length h)); [contradiction|reflexivity].
  - destruct (adds_ok o (map Some deps) (alloc h k)) as [h' [E [I [S D]]]].
    + apply Wa.
    + unfold alive. now rewrite Lo.
    + now rewrite Lo.
    + rewrite Lo. cbn. intros G. rewrite map_length. auto.
    + intros s Hs. apply in_map_iff in Hs. destruct Hs as [t [Ht Hin]]. inversion Ht; subst. destruct (Hd s Hin) as [A B].
      split; [now apply alive_alloc|now rewrite kind_alloc].
    + exists h'. split.
      * rewrite <- E. generalize (alloc h k). clear. induction deps as [|s l IH]; intros h0; auto. cbn [each map]. destruct (add_dependency h0 o (Some s)); cbn [bind]; auto.
      * split; [eapply WF_same; eauto|]. split.
        -- destruct S as [Sl [Sk Sp]]. assert (Eo := D o). rewrite Nat.eqb_refl, Lo in Eo. cbn [odeps app] in Eo.
           assert (Es : somes (map Some deps) = map Some deps) by (clear; induction deps as [|s l IH]; cbn; auto; f_equal; auto).
           rewrite Es in Eo. specialize (Sk o). specialize (Sp o). rewrite Lo in Sk, Sp. destruct (get h' o). cbn in *. now subst.
        -- intros x Hx. rewrite D, (get_alloc h k x). unfold o. destruct (Nat.eqb_spec x (length h)); [contradiction|reflexivity].
Qed.

Lemma Inv_P_mono h (P P' : nat -> nat -> Prop) : Inv h P -> (forall o i, P o i -> P' o i) ->
  (forall o i, P' o i -> ophase (get h o) <> Gone /\ has_obs (okind (get h o)) = true /\ ~ (ophase (get h o) = Live /\ okind (get h o) = KGen)) -> Inv h P'.
Proof.
  intros I H1 H2. constructor; try apply I; auto.
  - intros o i s HP. apply I. intros G. apply HP. auto.
Qed.

(** ---- pointer assignment ---- *)
Lemma NT_one e : NT [e].
Proof. destruct e as [s|]; [right; now exists s|left; intros [|[|i]] s; discriminate]. Qed.

(** a pointer whose single dependency is being exchanged: the link (v,0) is settled at last *)
Lemma settle_var h v d : Inv h (at_ v 0) -> alive h v -> okind (get h v) = KVar ->
  (forall s i, link h s v i -> i = 0) ->
  (forall s, link h s v 0 <-> d = Some s) -> Inv (set_deps h v [d]) none.
Proof.
  intros I Hv Hk L0 L. assert (Lv := alive_lt h v Hv). unfold alive in Hv. constructor.
  - intros o i s _. rewrite link_set_deps. unfold dep. destruct (Nat.eq_dec o v) as [->|Hn].
    + rewrite deps_set_deps_same by auto. destruct i as [|i]; cbn.
      * rewrite L. split; congruence.
      * split; [destruct i; discriminate|]. intros G. apply L0 in G. discriminate.
    + rewrite deps_set_deps_other by auto. apply (i_mirror _ _ I). unfold at_. tauto.
  - intros o. destruct (Nat.eq_dec o v) as [->|Hn]; [rewrite deps_set_deps_same by auto; apply NT_one|rewrite deps_set_deps_other by auto; apply I].
  - intros o i s. unfold dep. destruct (Nat.eq_dec o v) as [->|Hn]; rewrite kind_set_deps, phase_set_deps.
    + intros _. rewrite Hk, Hv. split; auto. discriminate.
    + rewrite deps_set_deps_other by auto. apply (i_obs _ _ I).
  - intros s o i. rewrite link_set_deps, kind_set_deps, phase_set_deps. apply I.
  - intros o i [].
  - intros o. rewrite kind_set_deps. intros G. destruct (Nat.eq_dec o v) as [->|Hn]; [rewrite deps_set_deps_same by auto; cbn; lia|rewrite deps_set_deps_other by auto; now apply I].
Qed.

Section Ord.
Context (ord : list nat -> list nat) (Hord : forall l, Permutation (ord l) l).

Lemma nlive_len h : nlive h <= length h.
Proof. unfold nlive. rewrite <- (seq_length (length h) 0) at 2. generalize (seq 0 (length h)). induction l as [|a l IH]; cbn; auto. destruct (is_live h a); cbn; lia. Qed.

Lemma assign_ok h v s n : WF h -> nlive h <= n -> legal h (OAssign v s) ->
  exists h', var_assign (delete ord n) h v s = Ok h' /\ WF h' /\ alive h' v /\ (forall t, dep h' v 0 t <-> s = Some t).
Proof.
  intros [I W] Hn [[Hv Hk] Hs]. pose proof (alive_lt h v Hv) as Lv. unfold alive in Hv.
  unfold var_assign. rewrite access_ok by congruence. cbn [bind].
  pose proof (i_var h none I v Hk) as Len.
  assert (Hall : forall t i, link h t v i -> i = 0).
  { intros t i L. apply (i_mirror h none I) in L; [|intros []]. apply dep_lt in L. lia. }
  destruct (odeps (get h v)) as [|e [|e2 l]] eqn:Ed; [| |cbn in Len; lia].
  - destruct s as [s|].
    + destruct (add_ok h v s) as [h' [E [I' [S D]]]]; auto; [now rewrite Hk|]. exists h'. split; auto. split; [eapply WF_same; eauto; split; auto|].
      split; [unfold alive; destruct S as [_ [_ Sp]]; now rewrite Sp|]. intros t. unfold dep. rewrite D, Nat.eqb_refl, Ed. cbn. split; congruence.
    + unfold add_dependency. rewrite access_ok by congruence. cbn [bind]. rewrite access_ok by congruence. cbn [bind]. rewrite Ed. cbn [app].
      assert (N : forall t, ~ link h t v 0).
      { intros t L. apply (i_mirror h none I) in L; [|intros []]. apply dep_lt in L. rewrite Ed in L. cbn in L. lia. }
      eexists. split; [reflexivity|]. split; [|split].
      * eapply WF_same; [split; eauto|apply Same_deps|]. apply settle_var; auto.
        -- apply (Inv_P_mono h none); auto; [intros o i []|]. intros o i [-> _]. rewrite Hv, Hk. repeat split; try discriminate. intros [_ G]; discriminate.
        -- intros t. split; [intros L; now apply N in L|discriminate].
      * unfold alive. now rewrite phase_set_deps.
      * intros t. unfold dep. rewrite deps_set_deps_same by auto. cbn. split; congruence.
  - unfold replace_dependency. rewrite access_ok by congruence. cbn [bind]. rewrite Ed. cbn [length Nat.leb nth_error].
    assert (IP : forall h0, Same h h0 -> forall o i, at_ v 0 o i -> ophase (get h0 o) <> Gone /\ has_obs (okind (get h0 o)) = true /\ ~ (ophase (get h0 o) = Live /\ okind (get h0 o) = KGen)).
    { intros h0 [_ [Sk Sp]] o i [-> _]. rewrite Sk, Sp, Hv, Hk. repeat split; try discriminate. intros [_ G]; discriminate. }
    (* attach *)
    assert (A : exists h1, (match s with Some s0 => attach h s0 v 0 | None => Ok h end) = Ok h1 /\ Same h h1 /\ (forall x, odeps (get h1 x) = odeps (get h x)) /\
       (forall a b c, link h1 a b c <-> link h a b c \/ (s = Some a /\ b = v /\ c = 0))).
    { destruct s as [s|].
      - destruct (attach_eff h s v 0) as [h1 [E1 [S1 [D1 L1]]]]; [destruct (Hs s eq_refl) as [G _]; unfold alive in G; congruence|].
        exists h1. split; auto. split; auto. split; auto. intros a b c. rewrite L1. split; (intros [G|[G1 G2]]; [now left|right; split; auto; congruence]).
      - exists h. split; auto. split; [apply Same_refl|]. split; auto. intros a b c. split; auto. intros [G|[G _]]; [auto|discriminate]. }
    destruct A as [h1 [E1 [S1 [D1 L1]]]]. rewrite E1. cbn [bind].
    assert (I1 : Inv h1 (at_ v 0)).
    { pose proof S1 as [Sl [Sk Sp]]. constructor.
      - intros o i t HP. unfold at_ in HP. unfold dep. rewrite D1, L1. fold (dep h o i t). rewrite (i_mirror h none I) by auto. intuition.
      - intros o. rewrite D1. apply I.
      - intros o i t. unfold dep. rewrite D1, Sk, Sp. apply (i_obs h none I).
      - intros t o i. rewrite L1, Sk, Sp. intros [G|[-> _]]; [now apply (i_sub h none I t o i)|]. destruct (Hs t eq_refl) as [G1 G2]. unfold alive in G1. split; auto; congruence.
      - now apply IP.
      - intros o. rewrite D1, Sk. apply I. }
    assert (L10 : forall t i, link h1 t v i -> i = 0) by (intros t i G; apply L1 in G; destruct G as [G|[_ [_ G]]]; eauto).
    assert (V1 : ophase (get h1 v) = Live) by (destruct S1 as [_ [_ Sp]]; now rewrite Sp).
    assert (K1 : okind (get h1 v) = KVar) by (destruct S1 as [_ [Sk _]]; now rewrite Sk).
    assert (Last : forall t, link h t v 0 <-> e = Some t).
    { intros t. rewrite <- (i_mirror h none I) by (intros []). unfold dep. rewrite Ed. cbn. split; congruence. }
    (* detach *)
    assert (B : exists h2, (match e with Some lastsub => if match s with Some s0 => lastsub =? s0 | None => false end then Ok h1 else detach (delete ord n) h1 lastsub v 0 | None => Ok h1 end) = Ok h2 /\
       Inv h2 (at_ v 0) /\ (forall x, ophase (get h2 x) = Live \/ ophase (get h2 x) = Gone) /\ ophase (get h2 v) = Live /\ okind (get h2 v) = KVar /\ length (odeps (get h2 v)) = 1 /\
       (forall t i, link h2 t v i -> i = 0) /\ (forall t, link h2 t v 0 <-> s = Some t)).
    { assert (W1 : forall x, ophase (get h1 x) = Live \/ ophase (get h1 x) = Gone) by (destruct S1 as [_ [_ Sp]]; intros x; rewrite Sp; apply W).
      assert (Id : (forall t, link h1 t v 0 <-> s = Some t) -> Inv h1 (at_ v 0) /\ (forall x, ophase (get h1 x) = Live \/ ophase (get h1 x) = Gone) /\ ophase (get h1 v) = Live /\ okind (get h1 v) = KVar /\ length (odeps (get h1 v)) = 1 /\
         (forall t i, link h1 t v i -> i = 0) /\ (forall t, link h1 t v 0 <-> s = Some t)).
      { intros G. split; auto. split; auto. split; auto. split; auto. split; [rewrite D1, Ed; reflexivity|]. split; auto. }
      destruct e as [last|].
      2: { exists h1. split; auto. apply Id. intros t. rewrite L1, Last. intuition congruence. }
      destruct (match s with Some s0 => last =? s0 | None => false end) eqn:Eq.
      { exists h1. split; auto. apply Id. intros t. rewrite L1, Last. destruct s as [s|]; [|discriminate]. apply Nat.eqb_eq in Eq. subst. intuition congruence. }
      assert (Ne : s <> Some last) by (intros ->; rewrite Nat.eqb_refl in Eq; discriminate).
      assert (N1 : nlive h1 <= n).
      { etransitivity; [apply nlive_le; [apply S1|]|exact Hn]. destruct S1 as [_ [_ Sp]]. intros x. now rewrite Sp. }
      destruct (detach_ok (delete ord n) n h1 (at_ v 0) v 0 last) as [h2 [D [F1 [F2 [F3 [_ [_ [F5 F6]]]]]]]].
      - now apply delete_ok.
      - exact N1.
      - exact I1.
      - intros o i. unfold at_. destruct (Nat.eq_dec o v), (Nat.eq_dec i 0); tauto.
      - apply L1. left. now apply Last.
      - congruence.
      - now rewrite K1.
      - intros [_ G]. congruence.
      - exists h2. split; auto.
        assert (Dv : D v = false). { destruct (D v) eqn:E; auto. apply F6 in E. rewrite K1 in E. destruct E; discriminate. }
        assert (La : forall a b c, link (set_aud h1 last (filter (fun q => negb (pair_eqb (v, 0) q)) (oaud (get h1 last)))) a b c <-> link h1 a b c /\ ~ (a = last /\ b = v /\ c = 0)).
        { intros a b c. apply link_cut. apply present_lt. destruct S1 as [_ [_ Sp]]. rewrite Sp. apply (i_sub h none I last v 0). now apply Last. }
        assert (Pv : ophase (get h2 v) = Live).
        { pose proof (r_phase _ _ _ _ _ _ _ F3 v (fun f => f)) as G. rewrite Dv, phase_set_aud in G. congruence. }
        split; [|split; [|split; [auto|split; [|split; [|split]]]]].
        + apply (Inv_P_mono h2 (plus (at_ v 0) v 0)); auto.
          * unfold plus, at_. tauto.
          * intros o i G. apply (i_P _ _ F2 o i). now left.
        + intros x. pose proof (r_phase _ _ _ _ _ _ _ F3 x (fun f => f)) as G. rewrite phase_set_aud in G. destruct (D x); [right; tauto|]. rewrite G. apply W1.
        + rewrite (r_kind _ _ _ _ _ _ _ F3), kind_set_aud. exact K1.
        + assert (Kv2 : okind (get h2 v) = KVar) by (rewrite (r_kind _ _ _ _ _ _ _ F3), kind_set_aud; exact K1).
          pose proof (i_var _ _ F2 v Kv2). assert (G : dep h2 v 0 last); [|apply dep_lt in G; lia].
          apply (r_depP _ _ _ _ _ _ _ F3); [right; split; auto|]. apply dep_set_aud. unfold dep. rewrite D1, Ed. reflexivity.
        + intros t i G. apply (r_link _ _ _ _ _ _ _ F3) in G. destruct G as [G _]. apply La in G. destruct G as [G _]. eauto.
        + intros t. rewrite (r_link _ _ _ _ _ _ _ F3), La, L1, Last. unfold none. split.
          * intros [[[G|[G _]] Hc] _]; [|auto]. exfalso. apply Hc. split; auto. congruence.
          * intros ->. split; [split; [right; auto|intros [-> _]; congruence]|]. split; auto. split; auto. destruct (D t) eqn:Dt; auto. exfalso.
            destruct (F5 t v 0 Dt) as [G|[-> _]]; [apply L1; right; auto|congruence|congruence]. }
    destruct B as [h2 [E2 [I2 [W2 [V2 [K2 [Len2 [L20 L2]]]]]]]].
    match goal with |- context [bind ?X _] => replace X with (Ok h2) end. cbn [bind].
    rewrite access_ok by congruence. cbn [bind]. rewrite wr_ok by lia. cbn [bind]. eexists. split; [reflexivity|].
    destruct (odeps (get h2 v)) as [|e' [|]] eqn:Ed2; cbn in Len2; try lia. cbn [set_nth].
    assert (Lv2 : v < length h2) by (apply present_lt; congruence).
    split; [|split].
    + split; [apply settle_var; auto|]. intros x. rewrite phase_set_deps. apply W2.
    + unfold alive. now rewrite phase_set_deps.
    + intros t. unfold dep. rewrite deps_set_deps_same by auto. cbn. split; congruence.
Qed.

Lemma dead_complete h h' D (R : nat -> Prop) (P : nat -> nat -> Prop) : (forall o i, ~ P o i) -> Inv h P -> (forall r, R r -> D r = true) -> Rel nobodyp R D none P h h' -> forall c, D c = true <-> dead h R c.
Proof.
  intros NP I Dx A c. split; [apply A|]. induction 1 as [r Hr|o i s Hf Hd _ IH|c o i Hs Hl L _ IH].
  - now apply Dx.
  - destruct (D o) eqn:E; auto. assert (G : D s = false) by (eapply (r_up _ _ _ _ _ _ _ A); eauto). congruence.
  - destruct (D c) eqn:E; auto. destruct (r_ne _ _ _ _ _ _ _ A c o i E) as [o' [i' L']]; auto.
    apply (r_link _ _ _ _ _ _ _ A) in L'. destruct L' as [L' [_ [G _]]]. rewrite (IH o' i' L') in G. discriminate.
Qed.

Lemma none_dec : forall o i, none o i \/ ~ none o i. Proof. intros; right; intros []. Qed.

Lemma delete_wf h x n : WF h -> alive h x -> nlive h <= n ->
  exists h' D, delete ord n h x = Ok h' /\ WF h' /\ (forall c, D c = true <-> dead h (eq x) c) /\ Rel nobodyp (eq x) D none none h h'.
Proof.
  intros [I W] Hx Hn. destruct (delete_ok ord Hord n h x none I none_dec Hx) as [h' [D [E [I' [Dx [R _]]]]]]; auto.
  - right. split; [auto|]. split; intros o; destruct (W o) as [G|G]; rewrite G; discriminate.
  - exists h', D. split; auto. split; [|split; auto].
    + split; auto. intros o. pose proof (r_phase _ _ _ _ _ _ _ R o (fun f => f)) as G. destruct (D o); [right; tauto|]. rewrite G. apply W.
    + apply (dead_complete h h' D (eq x) none); auto. intros r <-. exact Dx.
Qed.

Lemma clear_ok h v n : WF h -> legal h (OClear v) -> nlive h <= n ->
  exists h', var_clear (delete ord n) h v = Ok h' /\ WF h' /\ alive h' v /\ forall i s, ~ dep h' v i s.
Proof.
  intros [I W] [[Hv Hk] Hd] Hn. unfold var_clear. pose proof (i_var h none I v Hk) as Len. unfold alive in Hv.
  destruct (odeps (get h v)) as [|e [|]] eqn:Ed; [congruence| |cbn in Len; lia]. destruct e as [s|].
  - destruct (rem_step (delete ord n) n h nobodyp none v 0 s) as [h' [D [E [I' [Dv [R _]]]]]]; auto.
    + now apply delete_ok.
    + intros e [].
    + unfold dep. now rewrite Ed.
    + intros [_ G]. congruence.
    + exists h'. split; auto. pose proof (fun o => r_phase _ _ _ _ _ _ _ R o (fun f => f)) as Ph. split; [|split].
      * split; auto. intros x. specialize (Ph x). destruct (D x); [right; tauto|]. rewrite Ph. apply W.
      * specialize (Ph v). rewrite Dv in Ph. unfold alive. congruence.
      * intros i t G. apply (r_dep _ _ _ _ _ _ _ R) in G; [|intros []]. destruct G as [G1 [G2 _]]. apply G2. split; auto.
        apply dep_lt in G1. rewrite Ed in G1. cbn in G1. lia.
  - exists h. split; [unfold remove_dependency; rewrite access_ok by congruence; cbn [bind]; now rewrite Ed|]. split; [split; auto|]. split; auto.
    intros i s. unfold dep. rewrite Ed. destruct i as [|[|]]; discriminate.
Qed.

(** ---- all links of an observer given up ---- *)
Definition detach_body del o : nat -> heap -> res heap := fun i h =>
    ob <- access h o ;;
    match nth_error (odeps ob) i with Some (Some s) => detach del h s o i | Some None => Ok h | None => UB end.

Record Cut (k o : nat) (D : nat -> bool) (h hk : heap) : Prop := {
  c_inv : Inv hk (fun o' i => o' = o /\ i < k);
  c_len : length hk = length h;
  c_kind : forall x, okind (get hk x) = okind (get h x);
  c_phase : forall x, if D x then ophase (get h x) = Live /\ ophase (get hk x) = Gone else ophase (get hk x) = ophase (get h x);
  c_sd : forall x, D x = true -> selfdel (okind (get h x));
  c_up : forall c o' i, D c = true -> link h c o' i -> D o' = true \/ o' = o;
  c_own : forall i s, dep hk o i s <-> dep h o i s;
  c_dep : forall o' i s, o' <> o -> (dep hk o' i s <-> dep h o' i s /\ D o' = false /\ D s = false);
  c_link : forall s o' i, link hk s o' i <-> link h s o' i /\ ~ (o' = o /\ i < k) /\ D o' = false /\ D s = false;
  c_id : (forall i s, ~ dep h o i s) -> hk = h
}.

Lemma detach_all_ok h o n : Inv h none -> alive h o -> okind (get h o) = KVar \/ okind (get h o) = KConn -> nlive h <= n ->
  exists h1, for_ (length (odeps (get h o))) (detach_body (delete ord n) o) h = Ok h1 /\ exists D, Cut (length (odeps (get h o))) o D h h1.
Proof.
  intros I Ho Hk Hn. unfold alive in Ho.
  assert (Nsd : ~ selfdel (okind (get h o))) by (destruct Hk as [-> | ->]; intros [G|G]; discriminate).
  assert (Hob : has_obs (okind (get h o)) = true) by (destruct Hk as [-> | ->]; reflexivity).
  assert (Ng : okind (get h o) <> KGen) by (destruct Hk as [-> | ->]; discriminate).
  apply (for_inv (fun k hk => exists D, Cut k o D h hk)).
  - exists nodead. constructor; unfold nodead; auto; try discriminate; try tauto.
    + apply (Inv_P_mono h none); auto; [intros ? ? []|intros; lia].
    + intros. intuition lia.
  - intros k hk Lt [D C]. pose proof (c_inv _ _ _ _ _ C) as Ik.
    assert (Do : D o = false) by (destruct (D o) eqn:E; auto; now apply (c_sd _ _ _ _ _ C) in E).
    assert (Po : ophase (get hk o) = Live) by (pose proof (c_phase _ _ _ _ _ C o) as G; rewrite Do in G; congruence).
    assert (Ko : okind (get hk o) = okind (get h o)) by apply C.
    assert (Ent : exists e, nth_error (odeps (get hk o)) k = Some e).
    { destruct (nth_error (odeps (get hk o)) k) eqn:En; [eauto|]. exfalso. apply nth_error_None in En.
      destruct (i_nt h none I o) as [Nn|[s Ns]].
      - rewrite (c_id _ _ _ _ _ C Nn) in En. lia.
      - assert (G : dep hk o (length (odeps (get h o)) - 1) s) by (apply (c_own _ _ _ _ _ C); exact Ns). apply dep_lt in G. lia. }
    assert (IPk : forall h0, ophase (get h0 o) = Live -> okind (get h0 o) = okind (get h o) -> forall o' i, o' = o /\ i < S k -> ophase (get h0 o') <> Gone /\ has_obs (okind (get h0 o')) = true /\ ~ (ophase (get h0 o') = Live /\ okind (get h0 o') = KGen)).
    { intros h0 G1 G2 o' i [-> _]. rewrite G1, G2. repeat split; auto; [discriminate|tauto]. }
    unfold detach_body. rewrite access_ok by congruence. cbn [bind]. destruct Ent as [[s|] En]; rewrite En.
    + assert (Dk : dep hk o k s) by exact En.
      assert (Lk : link hk s o k) by (apply (i_mirror _ _ Ik); auto; lia).
      assert (Nk : nlive hk <= n).
      { etransitivity; [apply nlive_le; [apply C|]|exact Hn]. intros x Hx. pose proof (c_phase _ _ _ _ _ C x) as G. destruct (D x); [destruct G; congruence|congruence]. }
      assert (DPk : forall o' i, (o' = o /\ i < k) \/ ~ (o' = o /\ i < k)) by (intros o' i; destruct (Nat.eq_dec o' o), (Nat.lt_ge_cases i k); try tauto; right; lia).
      destruct (detach_ok (delete ord n) n hk (fun o' i => o' = o /\ i < k) o k s) as [h2 [D2 [F1 [F2 [F3 [_ [_ [F5 F6]]]]]]]]; auto.
      * now apply delete_ok.
      * congruence.
      * now rewrite Ko.
      * intros [_ G]. congruence.
      * exists h2. split; auto. exists (fun x => D x || D2 x).
        assert (La : forall a b c, link (set_aud hk s (filter (fun q => negb (pair_eqb (o, k) q)) (oaud (get hk s)))) a b c <-> link hk a b c /\ ~ (b = o /\ c = k)).
        { intros a b c. rewrite link_cut by (apply present_lt; apply (i_sub _ _ Ik s o k Lk)). split; intros [G1 G2]; split; auto; [|tauto].
          intros [-> ->]. apply G2. split; auto. apply (i_mirror _ _ Ik) in G1; [|lia]. eapply dep_fun; eauto. }
        assert (D2o : D2 o = false) by (destruct (D2 o) eqn:E; auto; apply F6 in E; rewrite Ko in E; contradiction).
        assert (Po2 : ophase (get h2 o) = Live). { pose proof (r_phase _ _ _ _ _ _ _ F3 o (fun f => f)) as G. rewrite D2o, phase_set_aud in G. congruence. }
        assert (Ko2 : forall x, okind (get h2 x) = okind (get h x)) by (intros x; rewrite (r_kind _ _ _ _ _ _ _ F3), kind_set_aud; apply C).
        constructor.
        -- apply (Inv_P_mono h2 _ _ F2); [unfold plus; intros o' i; lia|]. intros o' i. apply IPk; auto.
        -- rewrite (r_len _ _ _ _ _ _ _ F3), len_set_aud. apply C.
        -- exact Ko2.
        -- intros x. pose proof (c_phase _ _ _ _ _ C x) as G1. pose proof (r_phase _ _ _ _ _ _ _ F3 x (fun f => f)) as G2. rewrite phase_set_aud in G2.
           destruct (D x), (D2 x); cbn [orb]; intuition congruence.
        -- intros x G. apply orb_true_iff in G. destruct G as [G|G]; [now apply (c_sd _ _ _ _ _ C)|]. apply F6 in G. now rewrite (c_kind _ _ _ _ _ C) in G.
        -- intros c o' i G L. apply orb_true_iff in G. destruct G as [G|G]; [destruct (c_up _ _ _ _ _ C c o' i G L) as [->|]; auto|].
           destruct (D o') eqn:Do'; auto. destruct (Nat.eq_dec o' o); auto. destruct (D c) eqn:Dc; [destruct (c_up _ _ _ _ _ C c o' i Dc L); auto; congruence|].
           destruct (F5 c o' i G) as [G'|[_ [G' _]]]; auto. apply (c_link _ _ _ _ _ C). split; auto. split; auto. tauto.
        -- intros i t. destruct (Nat.lt_ge_cases i (S k)) as [Hi|Hi].
           ++ rewrite (r_depP _ _ _ _ _ _ _ F3), dep_set_aud; [apply (c_own _ _ _ _ _ C)|]. unfold plus. lia.
           ++ rewrite (r_dep _ _ _ _ _ _ _ F3), dep_set_aud; [|unfold plus; lia]. rewrite (c_own _ _ _ _ _ C). unfold none. split; [tauto|].
              intros G. split; auto. split; auto. split; auto. destruct (D2 t) eqn:Dt; auto. exfalso.
              assert (L : link hk t o i) by (apply (i_mirror _ _ Ik); [lia|now apply (c_own _ _ _ _ _ C)]).
              destruct (F5 t o i Dt L) as [G'|[_ [_ G']]]; [congruence|lia].
        -- intros o' i t Hne. rewrite (r_dep _ _ _ _ _ _ _ F3), dep_set_aud by (unfold plus; tauto). rewrite (c_dep _ _ _ _ _ C) by auto. rewrite !orb_false_iff. unfold none. tauto.
        -- intros t o' i. rewrite (r_link _ _ _ _ _ _ _ F3), La, (c_link _ _ _ _ _ C), !orb_false_iff. unfold none. intuition lia.
        -- intros Nn. exfalso. apply (Nn k s). now apply (c_own _ _ _ _ _ C).
    + exists hk. split; auto. exists D. destruct C. constructor; auto.
      * apply (Inv_P_mono hk (fun o' i => o' = o /\ i < k)); auto; [intros; lia|]. now apply IPk.
      * intros t o' i. rewrite c_link0. split; [|intuition lia]. intros [G1 [G2 G3]]. split; auto. split; auto. intros [-> G4].
        assert (i = k) by lia. subst i. assert (G5 : link hk t o k) by (apply c_link0; auto). apply (i_mirror _ _ Ik) in G5; [|lia]. unfold dep in G5. congruence.
Qed.

(** after that the observer's own list can be replaced at will *)
Lemma cut_clear h h1 o D : Inv h none -> alive h o -> has_obs (okind (get h o)) = true -> ~ selfdel (okind (get h o)) ->
  Cut (length (odeps (get h o))) o D h h1 ->
  D o = false /\ (forall s i, ~ link h1 s o i) /\ Inv (set_deps h1 o []) none.
Proof.
  intros I Ho Hob Nsd C. assert (Do : D o = false) by (destruct (D o) eqn:E; auto; now apply (c_sd _ _ _ _ _ C) in E).
  assert (NL : forall s i, ~ link h1 s o i).
  { intros s i G. apply (c_link _ _ _ _ _ C) in G. destruct G as [G1 [G2 _]]. apply G2. split; auto. apply (i_mirror h none I) in G1; [|intros []]. now apply dep_lt in G1. }
  split; auto. split; auto. pose proof (c_inv _ _ _ _ _ C) as Ik.
  assert (Lo : o < length h1) by (rewrite (c_len _ _ _ _ _ C); now apply alive_lt).
  constructor.
  - intros o' i s _. rewrite link_set_deps. unfold dep. destruct (Nat.eq_dec o' o) as [->|Hn].
    + rewrite deps_set_deps_same by auto. split; [destruct i; discriminate|]. intros G. now apply NL in G.
    + rewrite deps_set_deps_other by auto. apply (i_mirror _ _ Ik). tauto.
  - intros x. destruct (Nat.eq_dec x o) as [->|Hn]; [rewrite deps_set_deps_same by auto; left; intros [|] s; discriminate|rewrite deps_set_deps_other by auto; apply Ik].
  - intros x i s. unfold dep. rewrite kind_set_deps, phase_set_deps. destruct (Nat.eq_dec x o) as [->|Hn]; [rewrite deps_set_deps_same by auto; destruct i; discriminate|].
    rewrite deps_set_deps_other by auto. apply (i_obs _ _ Ik).
  - intros s x i. rewrite link_set_deps, kind_set_deps, phase_set_deps. apply Ik.
  - intros x i [].
  - intros x. rewrite kind_set_deps. intros G. destruct (Nat.eq_dec x o) as [->|Hn]; [rewrite deps_set_deps_same by auto; cbn; lia|rewrite deps_set_deps_other by auto; now apply Ik].
Qed.

Lemma cut_other h h1 o D x : Inv h none -> x <> o -> ~ selfdel (okind (get h x)) -> Cut (length (odeps (get h o))) o D h h1 ->
  D x = false /\ forall i s, dep h1 x i s <-> dep h x i s.
Proof.
  intros I Hn Nsd C. assert (Dx : D x = false) by (destruct (D x) eqn:E; auto; now apply (c_sd _ _ _ _ _ C) in E).
  split; auto. intros i s. rewrite (c_dep _ _ _ _ _ C) by auto. split; [tauto|]. intros G. split; auto. split; auto. destruct (D s) eqn:Ds; auto. exfalso.
  destruct (c_up _ _ _ _ _ C s x i Ds) as [G'|G']; [apply (i_mirror h none I); auto|congruence|contradiction].
Qed.

Lemma copy_ok h o x n : WF h -> o <> x -> legal h (OCopy o x) -> nlive h <= n ->
  exists h', copy_helper (delete ord n) h o x = Ok h' /\ WF h' /\ alive h' o /\ (forall s, (exists i, dep h' o i s) <-> exists i, dep h x i s).
Proof.
  intros [I W] Hne L Hn.
  assert (F : alive h o /\ alive h x /\ (okind (get h o) = KVar \/ okind (get h o) = KConn) /\ okind (get h x) = okind (get h o)).
  { destruct L as [[[A B] [C D]]|[[A B] [C D]]]; rewrite B, D; auto. }
  destruct F as [Ho [Hx [Hk Hkx]]].
  assert (Nsd : ~ selfdel (okind (get h o))) by (destruct Hk as [-> | ->]; intros [G|G]; discriminate).
  assert (Hob : has_obs (okind (get h o)) = true) by (destruct Hk as [-> | ->]; reflexivity).
  destruct (detach_all_ok h o n I Ho Hk Hn) as [h1 [E1 [D C]]].
  unfold copy_helper. fold (detach_body (delete ord n) o). rewrite E1. cbn [bind].
  destruct (cut_clear h h1 o D I Ho Hob Nsd C) as [Do [NL I2]].
  destruct (cut_other h h1 o D x I) as [Dx Dep]; auto; [now rewrite Hkx|].
  pose proof (fun y => c_phase _ _ _ _ _ C y) as Ph. assert (Po := Ph o). rewrite Do in Po. assert (Px := Ph x). rewrite Dx in Px. unfold alive in *.
  rewrite access_ok by congruence. cbn [bind]. rewrite access_ok by (rewrite phase_set_deps; congruence). cbn [bind].
  set (h2 := set_deps h1 o []) in *.
  assert (W2 : WF h2).
  { split; auto. intros y. unfold h2. rewrite phase_set_deps. specialize (Ph y). destruct (D y); [right; tauto|]. rewrite Ph. apply W. }
  assert (Lo : o < length h1) by (apply present_lt; congruence).
  destruct (adds_ok o (odeps (get h2 x)) h2) as [h3 [E3 [I3 [S3 D3]]]].
  - apply W2.
  - unfold alive, h2. rewrite phase_set_deps. congruence.
  - unfold h2. rewrite kind_set_deps, (c_kind _ _ _ _ _ C). auto.
  - unfold h2 at 1 2. rewrite kind_set_deps, (c_kind _ _ _ _ _ C), deps_set_deps_same by auto. intros G. cbn [length]. cbn.
    apply (i_var _ _ I2). unfold h2. rewrite kind_set_deps, (c_kind _ _ _ _ _ C). congruence.
  - intros s Hs. apply In_nth_error in Hs. destruct Hs as [i Hs]. apply (i_mirror _ _ I2) in Hs; [|intros []].
    destruct (i_sub _ _ I2 s x i Hs) as [G1 G2]. split; auto. unfold alive. destruct (proj2 W2 s); auto. contradiction.
  - exists h3. split; auto. split; [eapply WF_same; eauto|]. split.
    + destruct S3 as [_ [_ Sp]]. rewrite Sp. unfold h2. rewrite phase_set_deps. congruence.
    + intros s. unfold dep at 1. rewrite D3, Nat.eqb_refl. unfold h2 at 1. rewrite deps_set_deps_same by auto. cbn [app].
      assert (E : odeps (get h2 x) = odeps (get h1 x)) by (unfold h2; now apply deps_set_deps_other; congruence). rewrite E.
      split; intros [i G].
      * apply nth_error_In in G. apply filter_In in G. destruct G as [G _]. apply In_nth_error in G. destruct G as [j G]. exists j. now apply Dep.
      * apply Dep in G. apply nth_error_In in G. apply In_nth_error. apply filter_In. auto.
Qed.

Lemma move_ok h o x n : WF h -> o <> x -> alive h o -> alive h x -> okind (get h o) = KConn -> okind (get h x) = KConn -> nlive h <= n ->
  exists h', move_helper (delete ord n) h o x = Ok h' /\ WF h' /\ alive h' o /\ alive h' x /\ (forall i s, ~ dep h' x i s) /\
    (forall i s, dep h' o i s <-> dep h x i s) /\
    ((forall i s, ~ dep h o i s) -> forall y i s, y <> o -> y <> x -> (dep h' y i s <-> dep h y i s)).
Proof.
  intros [I W] Hne Ho Hx Hk Hkx Hn.
  assert (Nsd : ~ selfdel (okind (get h o))) by (rewrite Hk; intros [G|G]; discriminate).
  assert (Hob : has_obs (okind (get h o)) = true) by (rewrite Hk; reflexivity).
  destruct (detach_all_ok h o n I Ho (or_intror Hk) Hn) as [h1 [E1 [D C]]].
  unfold move_helper. fold (detach_body (delete ord n) o). rewrite E1. cbn [bind].
  destruct (cut_clear h h1 o D I Ho Hob Nsd C) as [Do [NL I2]].
  destruct (cut_other h h1 o D x I) as [Dx Dep]; auto; [rewrite Hkx; intros [G|G]; discriminate|].
  pose proof (fun y => c_phase _ _ _ _ _ C y) as Ph. assert (Po := Ph o). rewrite Do in Po. assert (Px := Ph x). rewrite Dx in Px. unfold alive in *.
  rewrite access_ok by congruence. cbn [bind]. rewrite access_ok by congruence. cbn [bind].
  set (ds := odeps (get h1 x)). set (h2 := set_deps (set_deps h1 o ds) x []). pose proof (c_inv _ _ _ _ _ C) as Ik.
  assert (Lo : o < length h1) by (apply present_lt; congruence). assert (Lx : x < length h1) by (apply present_lt; congruence).
  assert (S2 : Same h1 h2) by (eapply Same_trans; apply Same_deps).
  assert (D2 : forall y, odeps (get h2 y) = if y =? x then [] else if y =? o then ds else odeps (get h1 y)).
  { intros y. unfold h2. destruct (Nat.eqb_spec y x) as [->|Hy]; [rewrite deps_set_deps_same; auto; now rewrite len_set_deps|].
    rewrite deps_set_deps_other by auto. destruct (Nat.eqb_spec y o) as [->|Hy2]; [now rewrite deps_set_deps_same|now rewrite deps_set_deps_other by auto]. }
  assert (L2 : forall a b c, link h2 a b c <-> link h1 a b c) by (intros; unfold h2; now rewrite !link_set_deps).
  assert (Mx : forall s i, link h1 s x i <-> nth_error ds i = Some (Some s)).
  { intros s i. rewrite <- (i_mirror _ _ Ik) by (intros [G _]; congruence). reflexivity. }
  assert (Loop : exists h3, for_ (length ds) (fun i h => ob <- access h o ;;
     match nth_error (odeps ob) i with
     | Some (Some s) => h <- attach h s o i ;; detach (delete ord n) h s x i
     | Some None => Ok h | None => UB end) h2 = Ok h3 /\ Same h2 h3 /\ (forall y, odeps (get h3 y) = odeps (get h2 y)) /\
     (forall a b c, link h3 a b c <-> (b = o /\ c < length ds /\ nth_error ds c = Some (Some a)) \/ (b = x /\ length ds <= c /\ nth_error ds c = Some (Some a)) \/ (b <> o /\ b <> x /\ link h1 a b c))).
  { apply (for_inv (fun k h3 => Same h2 h3 /\ (forall y, odeps (get h3 y) = odeps (get h2 y)) /\
     (forall a b c, link h3 a b c <-> (b = o /\ c < k /\ nth_error ds c = Some (Some a)) \/ (b = x /\ k <= c /\ nth_error ds c = Some (Some a)) \/ (b <> o /\ b <> x /\ link h1 a b c)))).
    - split; [apply Same_refl|]. split; auto. intros a b c. rewrite L2. destruct (Nat.eq_dec b o) as [->|Hb].
      + split; [intros G; now apply NL in G|]. intros [G|[G|G]]; [lia|destruct G; congruence|tauto].
      + destruct (Nat.eq_dec b x) as [->|Hb2]; [|tauto]. rewrite Mx. split; [intros G; right; left; split; auto; split; auto; lia|]. intros [[G _]|[G|G]]; [congruence|tauto|tauto].
    - intros k hk Lt [Sk [Dk Lk]]. pose proof Sk as [Skl [Skk Skp]]. pose proof S2 as [S2l [S2k S2p]].
      rewrite access_ok by (rewrite Skp, S2p; congruence). cbn [bind]. rewrite Dk, D2. destruct (Nat.eqb_spec o x); [contradiction|]. rewrite Nat.eqb_refl.
      destruct (nth_error ds k) as [[s|]|] eqn:En; [| |apply nth_error_None in En; lia].
      + assert (Lsx : link h1 s x k) by now apply Mx. destruct (i_sub _ _ Ik s x k Lsx) as [Hs1 Hs2].
        assert (Pk : ophase (get hk s) <> Gone) by (rewrite Skp, S2p; auto).
        destruct (attach_eff hk s o k Pk) as [ha [Ea [Sa [Da La]]]]. rewrite Ea. cbn [bind]. pose proof Sa as [_ [_ Sap]].
        destruct (detach_simple (delete ord n) ha s x k) as [hb [Eb [Sb [Db Lb]]]]; [rewrite Sap; auto| |].
        { left. exists o, k. split; [apply La; auto|]. intros [G _]. contradiction. }
        exists hb. split; auto. split; [eapply Same_trans; [exact Sk|eapply Same_trans; eauto]|]. split; [intros y; now rewrite Db, Da|].
        intros a b c. rewrite Lb, La, Lk. split.
        * intros [[G|[-> [-> ->]]] Hc]; [|left; split; auto].
          destruct G as [G|[G|G]]; [left; split; [tauto|]; split; [lia|tauto]| |tauto].
          right; left. destruct G as [-> [G2 G3]]. split; auto. split; auto. destruct (Nat.eq_dec c k) as [->|]; [|lia]. exfalso. apply Hc. split; auto. congruence.
        * intros [[-> [G1 G2]]|[[-> [G1 G2]]|G]].
          -- split; [|tauto]. destruct (Nat.eq_dec c k) as [->|]; [right; split; auto; congruence|left; left; split; auto; split; auto; lia].
          -- split; [left; right; left; split; auto; split; auto; lia|lia].
          -- split; tauto.
      + exists hk. split; auto. split; auto. split; auto. intros a b c. rewrite Lk. split.
        * intros [[-> [G1 G2]]|[[-> [G1 G2]]|G]]; [left; split; auto|right; left; split; auto; split; auto|tauto]. destruct (Nat.eq_dec c k) as [->|]; [congruence|lia].
        * intros [[-> [G1 G2]]|[[-> [G1 G2]]|G]]; [left; split; auto; split; auto|right; left; split; auto; split; auto; lia|tauto]. destruct (Nat.eq_dec c k) as [->|]; [congruence|lia]. }
  destruct Loop as [h3 [E3 [S3 [D3 L3]]]]. exists h3. split; [exact E3|].
  assert (S13 : Same h1 h3) by (eapply Same_trans; eauto). pose proof S13 as [Sl [Sk Sp]].
  assert (Dp : forall b c a, dep h3 b c a <-> (b = o /\ nth_error ds c = Some (Some a)) \/ (b <> o /\ b <> x /\ dep h1 b c a)).
  { intros b c a. unfold dep. rewrite D3, D2. destruct (Nat.eqb_spec b x) as [->|Hb].
    - split; [destruct c; discriminate|]. intros [[G _]|G]; [congruence|tauto].
    - destruct (Nat.eqb_spec b o) as [->|Hb2]; [|tauto]. split; [auto|]. intros [G|G]; tauto. }
  assert (I3 : Inv h3 none).
  { constructor.
    - intros b c a _. rewrite Dp, L3. split.
      + intros [[-> G]|[G1 [G2 G3]]]; [left; split; auto; split; auto; apply nth_error_Some; congruence|]. right; right. split; auto. split; auto. apply (i_mirror _ _ Ik); tauto.
      + intros [[-> [G1 G2]]|[[-> [G1 G2]]|[G1 [G2 G3]]]]; [left; auto| |].
        * exfalso. assert (c < length ds) by (apply nth_error_Some; congruence). lia.
        * right. split; auto. split; auto. apply (i_mirror _ _ Ik); tauto.
    - intros y. rewrite D3, D2. destruct (y =? x); [left; intros [|] s; discriminate|]. destruct (y =? o); apply Ik.
    - intros b c a G. rewrite Sk, Sp. apply Dp in G. destruct G as [[-> G]|[_ [_ G]]]; [|now apply (i_obs _ _ Ik b c a)].
      rewrite (c_kind _ _ _ _ _ C), Hk. split; auto. congruence.
    - intros a b c G. rewrite Sk, Sp. apply L3 in G.
      assert (exists b' c', link h1 a b' c') as [b' [c' G']]; [|now apply (i_sub _ _ Ik a b' c')].
      destruct G as [[-> [_ G]]|[[-> [_ G]]|[_ [_ G]]]]; [exists x, c; now apply Mx|exists x, c; now apply Mx|eauto].
    - intros b c [].
    - intros y. rewrite Sk, D3, D2. intros G. destruct (y =? x); [cbn; lia|]. destruct (Nat.eqb_spec y o) as [->|]; [rewrite (c_kind _ _ _ _ _ C), Hk in G; discriminate|now apply Ik]. }
  split; [split; auto; intros y; rewrite Sp; specialize (Ph y); destruct (D y); [right; tauto|rewrite Ph; apply W]|].
  split; [rewrite Sp; congruence|]. split; [rewrite Sp; congruence|]. split.
  - intros i s G. apply Dp in G. destruct G as [[G _]|G]; [congruence|tauto].
  - split; [intros i s; rewrite Dp; rewrite <- Dep; unfold dep; fold ds; tauto|].
    intros Nn y i s Hy1 Hy2. rewrite Dp, (c_id _ _ _ _ _ C Nn). tauto.
Qed.

(** ---- a node moved to a new place ---- *)
Lemma NT_set d k s t : NT d -> nth_error d k = Some (Some t) -> NT (set_nth k (Some s) d).
Proof.
  intros [N|[r N]] G; [now apply N in G|]. right. rewrite length_set_nth.
  assert (k < length d) by (apply nth_error_Some; congruence). rewrite nth_error_set_nth.
  destruct (Nat.eqb_spec k (length d - 1)) as [E|E]; cbn [andb]; [|exists r; auto].
  destruct (Nat.ltb_spec k (length d)); [exists s; auto|lia].
Qed.

Lemma replace_simple del h v k old s : Inv h none -> dep h v k old -> old <> s -> node h s -> ~ selfdel (okind (get h old)) ->
  exists h', replace_dependency del h v (Some s) k = Ok h' /\ Inv h' none /\ Same h h' /\
    (forall o i t, dep h' o i t <-> (o = v /\ i = k /\ t = s) \/ (~ (o = v /\ i = k) /\ dep h o i t)).
Proof.
  intros I Hd Hne [Hs Hss] Nsd. unfold alive in Hs. destruct (i_obs h none I v k old Hd) as [Hvo Hvp].
  assert (Lk : link h old v k) by (apply (i_mirror h none I); auto). destruct (i_sub h none I old v k Lk) as [_ Hop].
  unfold replace_dependency. rewrite access_ok by auto. cbn [bind].
  destruct (attach_eff h s v k) as [h1 [E1 [S1 [D1 L1]]]]; [congruence|]. rewrite E1. cbn [bind]. pose proof S1 as [_ [Sk1 Sp1]].
  pose proof (dep_lt _ _ _ _ Hd) as Lt. destruct (Nat.leb_spec (length (odeps (get h v))) k); [lia|].
  unfold dep in Hd. rewrite Hd. destruct (Nat.eqb_spec old s); [contradiction|].
  destruct (detach_simple del h1 old v k) as [h2 [E2 [S2 [D2 L2]]]]; [now rewrite Sp1|right; rewrite Sk1; tauto|]. rewrite E2. cbn [bind].
  pose proof S2 as [_ [Sk2 Sp2]]. rewrite access_ok by (rewrite Sp2, Sp1; auto). cbn [bind].
  rewrite D2, D1, wr_ok by auto. cbn [bind]. eexists. split; [reflexivity|]. set (h3 := set_deps h2 v _).
  assert (S3 : Same h h3) by (eapply Same_trans; [exact S1|eapply Same_trans; [exact S2|apply Same_deps]]).
  pose proof S3 as [Sl [Sk Sp]]. assert (Lv : v < length h2) by (apply present_lt; rewrite Sp2, Sp1; auto).
  assert (D3 : forall y, odeps (get h3 y) = if y =? v then set_nth k (Some s) (odeps (get h v)) else odeps (get h y)).
  { intros y. unfold h3. destruct (Nat.eqb_spec y v) as [->|]; [now rewrite deps_set_deps_same|rewrite deps_set_deps_other by auto; now rewrite D2, D1]. }
  assert (Dp : forall o i t, dep h3 o i t <-> (o = v /\ i = k /\ t = s) \/ (~ (o = v /\ i = k) /\ dep h o i t)).
  { intros o i t. unfold dep. rewrite D3. destruct (Nat.eqb_spec o v) as [->|Hn]; [|tauto]. rewrite nth_error_set_nth.
    destruct (Nat.eqb_spec k i) as [<-|Hi]; cbn [andb].
    - destruct (Nat.ltb_spec k (length (odeps (get h v)))); [|lia]. split; [intros G; left; split; auto; split; auto; congruence|].
      intros [[_ [_ ->]]|[G _]]; [auto|tauto].
    - split; [intros G; right; split; auto; intros [_ G2]; congruence|]. intros [[_ [G _]]|G]; [congruence|tauto]. }
  split; [|split; auto]. constructor.
  - intros o i t _. rewrite Dp. unfold h3. rewrite link_set_deps, L2, L1. rewrite (i_mirror h none I) by auto.
    split.
    + intros [[-> [-> ->]]|[G1 G2]]; [split; [right; auto|intros [G _]; congruence]|]. split; [auto|tauto].
    + intros [[G1|[-> [-> ->]]] G2]; [|auto]. right. split; auto. intros [-> ->]. apply G2. split; auto.
      apply (i_mirror h none I) in G1; [|intros []]. unfold dep in G1. congruence.
  - intros y. rewrite D3. destruct (Nat.eqb_spec y v) as [->|]; [eapply NT_set; [apply I|exact Hd]|apply I].
  - intros o i t G. rewrite Sk, Sp. apply Dp in G. destruct G as [[-> _]|[_ G]]; [auto|now apply (i_obs h none I o i t)].
  - intros a b c. unfold h3 at 1. rewrite link_set_deps, L2, L1, Sk, Sp. intros [[G|[-> _]] _]; [now apply (i_sub h none I a b c)|split; auto; congruence].
  - intros o i [].
  - intros y. rewrite Sk, D3. intros G. destruct (Nat.eqb_spec y v) as [->|]; [rewrite length_set_nth|]; now apply I.
Qed.

Lemma each_flat (f : heap -> nat -> nat -> res heap) (J : nat -> list nat) L : forall h,
  each (fun h v => each (fun h i => f h v i) (J v) h) L h = each (fun h p => f h (fst p) (snd p)) (flat_map (fun v => map (pair v) (J v)) L) h.
Proof.
  induction L as [|v L IH]; intros h; auto. cbn [each flat_map].
  assert (A : forall l m h, each (fun h p => f h (fst p) (snd p)) (map (pair v) l ++ m) h = bind (each (fun h i => f h v i) l h) (fun h' => each (fun h p => f h (fst p) (snd p)) m h')).
  { clear. induction l as [|i l IH]; intros m h; auto. cbn [map app each fst snd]. destruct (f h v i); cbn [bind]; auto. }
  rewrite A. destruct (each (fun h i => f h v i) (J v) h); cbn [bind]; auto.
Qed.

Lemma NoDup_pairs (J : nat -> list nat) L : NoDup L -> (forall v, NoDup (J v)) -> NoDup (flat_map (fun v => map (pair v) (J v)) L).
Proof.
  intros HL HJ. induction HL as [|v L Hv HL IH]; cbn [flat_map]; [constructor|].
  assert (A : forall l, NoDup l -> NoDup (map (pair v) l ++ flat_map (fun v => map (pair v) (J v)) L)).
  { induction 1 as [|i l Hi Hl IHl]; cbn; auto. constructor; auto. intros G. apply in_app_or in G. destruct G as [G|G].
    - apply in_map_iff in G. destruct G as [j [Ej Hj]]. congruence.
    - apply in_flat_map in G. destruct G as [w [Hw G]]. apply in_map_iff in G. destruct G as [j [Ej Hj]]. inversion Ej. subst. contradiction. }
  now apply A.
Qed.

Lemma subject_move_ok del h s other : Inv h none -> node h s -> alive h other -> other <> s -> ~ selfdel (okind (get h other)) ->
  (forall o i, ~ dep h o i s) ->
  exists h', subject_move ord del h s other = Ok h' /\ Inv h' none /\ Same h h' /\
    (forall o i t, dep h' o i t <-> (t = s /\ dep h o i other) \/ (t <> s /\ t <> other /\ dep h o i t)).
Proof.
  intros I Hs Ho Hne Nsd Fr. unfold subject_move. unfold alive in Ho. rewrite access_ok by congruence. cbn [bind]. rewrite each_flat.
  set (l := flat_map _ _).
  assert (Hl : forall v i, In (v, i) l <-> dep h v i other).
  { intros v i. unfold l. rewrite (i_mirror h none I) by (intros []). rewrite in_flat_map. split.
    - intros [w [_ G]]. apply in_map_iff in G. destruct G as [j [Ej Hj]]. inversion Ej. subst. apply (Permutation_in i (Hord _)) in Hj. now apply indices_iff.
    - intros G. exists v. split; [apply (Permutation_in v (Permutation_sym (Hord _))); apply viewers_iff; eauto|].
      apply in_map_iff. exists i. split; auto. apply (Permutation_in i (Permutation_sym (Hord _))). now apply indices_iff. }
  assert (Nl : NoDup l).
  { unfold l. apply NoDup_pairs; [|intros v]; (eapply Permutation_NoDup; [apply Permutation_sym, Hord|apply NoDup_nodup]). }
  clearbody l.
  assert (Loop : forall m done h0, NoDup m -> (forall p, In p m -> In p l /\ ~ In p done) -> Inv h0 none -> Same h h0 ->
     (forall o i t, dep h0 o i t <-> (In (o, i) done /\ t = s) \/ (~ In (o, i) done /\ dep h o i t)) ->
     exists h', each (fun h p => replace_dependency del h (fst p) (Some s) (snd p)) m h0 = Ok h' /\ Inv h' none /\ Same h h' /\
       (forall o i t, dep h' o i t <-> (In (o, i) (m ++ done) /\ t = s) \/ (~ In (o, i) (m ++ done) /\ dep h o i t))).
  { induction m as [|[v i] m IH]; intros done h0 Nm Hm I0 S0 Dp0; [exists h0; auto|]. inversion Nm as [|? ? Nv Nm']; subst.
    destruct (Hm (v, i)) as [Hin Hnd]; [now left|]. pose proof S0 as [S0l [S0k S0p]].
    destruct (replace_simple del h0 v i other s) as [h1 [E1 [I1 [S1 Dp1]]]]; auto.
    - apply Dp0. right. split; auto. now apply Hl.
    - destruct Hs as [A B]. split; [unfold alive; now rewrite S0p|now rewrite S0k].
    - now rewrite S0k.
    - cbn [each fst snd]. rewrite E1. cbn [bind]. destruct (IH ((v, i) :: done) h1) as [h2 [E2 [I2 [S2 Dp2]]]]; auto.
      + intros p Hp. destruct (Hm p) as [A B]; [now right|]. split; auto. intros [<-|G]; contradiction.
      + eapply Same_trans; eauto.
      + intros o j t. rewrite Dp1, Dp0. assert (Q : In (o, j) ((v, i) :: done) <-> (o = v /\ j = i) \/ In (o, j) done) by (cbn; split; (intros [G|G]; [left|now right]); [inversion G; auto|destruct G; now subst]).
        rewrite Q. destruct (Nat.eq_dec o v), (Nat.eq_dec j i); tauto.
      + exists h2. split; auto. split; auto. split; auto. intros o j t. rewrite Dp2.
        assert (Q : In (o, j) (m ++ (v, i) :: done) <-> In (o, j) (((v, i) :: m) ++ done)) by (rewrite !in_app_iff; cbn; tauto). rewrite Q. tauto. }
  destruct (Loop l [] h Nl) as [h1 [E1 [I1 [S1 Dp1]]]]; auto.
  - apply Same_refl.
  - intros o i t. cbn. tauto.
  - rewrite app_nil_r in Dp1. rewrite E1. cbn [bind]. pose proof S1 as [_ [_ Sp]]. rewrite access_ok by (rewrite Sp; congruence). cbn [bind].
    assert (Ea : oaud (get h1 other) = []).
    { destruct (oaud (get h1 other)) as [|[a b] q] eqn:E; auto. exfalso. assert (L : link h1 other a b) by (unfold link; rewrite E; now left).
      apply (i_mirror h1 none I1) in L; [|intros []]. apply Dp1 in L. destruct L as [[_ G]|[G1 G2]]; [congruence|]. apply G1. now apply Hl. }
    assert (Lo : other < length h1) by (apply present_lt; rewrite Sp; congruence).
    assert (Eq : set_aud h1 other [] = h1).
    { unfold set_aud. rewrite <- Ea. unfold put. replace (mkobj _ _ _ _) with (get h1 other) by (destruct (get h1 other); reflexivity).
      unfold get. clear. revert other. induction h1 as [|a l IH]; intros [|x]; cbn; auto. now rewrite IH. }
    exists h1. split; [now rewrite Eq|]. split; auto. split; auto. intros o i t. rewrite Dp1, Hl. split.
    + intros [[G ->]|[G1 G2]]; [left; auto|]. destruct (Nat.eq_dec t s) as [->|]; [now apply Fr in G2|]. right. split; auto. split; auto. congruence.
    + intros [[-> G]|[G1 [G2 G3]]]; [left; auto|]. right. split; auto. intros G. apply G2. eapply dep_fun; eauto.
Qed.

Lemma move_new_ok h x n : WF h -> legal h (OMoveNew x) -> nlive h <= n -> S (nlive h) <= n ->
  exists h', move_new ord (delete ord n) h x = Ok h' /\ WF h' /\ (forall o i, ~ dep h' o i x) /\
    (forall o i, o <> x -> dep h o i x -> dep h' o i (length h)) /\ (okind (get h x) = KConn -> forall i s, ~ dep h' x i s).
Proof.
  intros W [Hx Hk] _ Hn. unfold move_new. set (s := length h). set (k := okind (get h x)). pose proof (alive_lt h x Hx) as Lx.
  pose proof (alloc_ok h k W) as Wa. assert (Gs : get (alloc h k) s = mkobj k Live [] []) by (rewrite get_alloc; unfold s; now rewrite Nat.eqb_refl).
  assert (Kx : okind (get (alloc h k) x) = k) by (now rewrite kind_alloc). pose proof (alive_alloc h k x Hx) as Ax.
  assert (Nx : x <> s) by (unfold s; lia).
  assert (Nds : forall o i, ~ dep (alloc h k) o i s).
  { intros o i G. apply dep_alloc in G. destruct W as [I _]. apply (i_mirror h none I) in G; [|intros []]. apply (i_sub h none I) in G. destruct G as [_ G]. rewrite get_out in G by (unfold s; lia). now contradiction G. }
  destruct (subject_move_ok (delete ord n) (alloc h k) s x) as [h1 [E1 [I1 [S1 Dp1]]]]; auto.
  - apply Wa.
  - unfold node, alive. rewrite Gs. split; auto. cbn. unfold k. destruct Hk as [-> | ->]; reflexivity.
  - rewrite Kx. unfold k. destruct Hk as [-> | ->]; intros [G|G]; discriminate.
  - rewrite E1. cbn [bind]. pose proof S1 as [Sl [Sk Sp]].
    assert (W1 : WF h1) by (eapply WF_same; eauto).
    assert (Nd1 : forall o i, ~ dep h1 o i x) by (intros o i G; apply Dp1 in G; destruct G as [[G _]|[_ [G _]]]; congruence).
    assert (Kp1 : forall o i, dep h o i x -> dep h1 o i s) by (intros o i G; apply Dp1; left; split; auto; now apply dep_alloc).
    assert (Ns1 : forall i t, ~ dep h1 s i t).
    { intros i t G. assert (A : exists u, dep (alloc h k) s i u) by (apply Dp1 in G; destruct G as [[_ G]|[_ [_ G]]]; eauto).
      destruct A as [u A]. apply dep_alloc in A. unfold dep in A. rewrite get_out in A by (unfold s; lia). destruct i; discriminate. }
    destruct (has_obs k) eqn:Hob.
    + assert (Kc : k = KConn) by (unfold k in *; destruct Hk as [E|E]; rewrite E in *; [discriminate|auto]).
      assert (N1 : nlive h1 <= n).
      { etransitivity; [|exact Hn]. unfold nlive. rewrite Sl. unfold alloc. rewrite app_length, seq_app, filter_app, app_length. cbn [length seq filter Nat.add].
        assert (A : length (filter (is_live h1) (seq 0 (length h))) <= length (filter (is_live h) (seq 0 (length h)))).
        { assert (B : forall l, (forall y, In y l -> y < length h) -> length (filter (is_live h1) l) <= length (filter (is_live h) l)).
          { induction l as [|y l IH]; intros Hy; cbn; auto. assert (is_live h1 y = is_live h y) as ->.
            { unfold is_live. rewrite Sp, get_alloc. specialize (Hy y (or_introl eq_refl)). destruct (Nat.eqb_spec y (length h)); [lia|reflexivity]. }
            assert (length (filter (is_live h1) l) <= length (filter (is_live h) l)) by (apply IH; intros; apply Hy; now right). destruct (is_live h y); cbn; lia. }
          apply B. intros y Hy. apply in_seq in Hy. lia. }
        destruct (is_live h1 (length h)); cbn; lia. }
      destruct (move_ok h1 s x n) as [h2 [E2 [W2 [_ [Ax2 [Nd2 [Dp2 Dq2]]]]]]]; auto.
      * unfold alive. rewrite Sp, Gs. reflexivity.
      * unfold alive. rewrite Sp. exact Ax.
      * rewrite Sk, Gs. exact Kc.
      * rewrite Sk, Kx. exact Kc.
      * exists h2. split; auto. split; auto. split; [|split; [|auto]].
        -- intros o i G. destruct (Nat.eq_dec o s) as [->|]; [apply Dp2 in G; now apply Nd1 in G|]. destruct (Nat.eq_dec o x) as [->|]; [now apply Nd2 in G|].
           apply Dq2 in G; auto. now apply Nd1 in G.
        -- intros o i Ho G. apply Kp1 in G. destruct (Nat.eq_dec o s) as [->|]; [now apply Ns1 in G|]. now apply Dq2.

    + exists h1. split; auto. split; auto. split; auto. split; auto. intros Hc. exfalso. change (k = KConn) in Hc. clearbody k. subst k. discriminate.
Qed.
End Ord.
