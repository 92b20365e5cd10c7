From Verif Require Import Common ShapeModel ShapeSpec ShapeProofs FitModel FitProofs TensorModel TensorSpec TensorProofs TensorDataLaws LeafModel LeafSpec LeafProofs ElemSpec GenModel GenSpec.

Section P.
Context {T : Type} (zero junk : T) (draw : nat -> nat -> nat -> T).
Local Notation aval := (@aval T).

(** ---- compatibility of defined shapes ---- *)

Lemma layout_compat a b : defined a -> defined b -> is_compatible_with a b = Ok (layout_eqb a b).
Proof.
  intros Ha Hb. pose proof (compat_defined_iff a b Ha Hb) as I. destruct (compat_total a b) as [c E]. rewrite E in *. f_equal.
  unfold layout_eqb. destruct (list_eq_dec Nat.eq_dec a b) as [->|N].
  - destruct c; auto. assert (X : Ok false = Ok true) by (apply I; auto). discriminate.
  - destruct (Nat.eqb_spec (length a) (length b)) as [L|L]; cbn [negb andb].
    + destruct c; auto. destruct I as [I _]. destruct (I eq_refl) as [[_ H]|[H _]]; contradiction.
    + destruct (list_eq_dec Nat.eq_dec (unpad a) (unpad b)) as [U|U].
      * destruct c; auto. assert (X : Ok false = Ok true) by (apply I; auto). discriminate.
      * destruct c; auto. destruct I as [I _]. destruct (I eq_refl) as [[H _]|[_ H]]; contradiction.
Qed.

(** ---- tensors by what they hold ---- *)

Definition al (w : world T) (k : nat) : Prop := exists t, alive w k t.

Definition holds (w : world T) (k : nat) (v : aval) : Prop :=
  match v with
  | Unset => False
  | Val s d => exists t p, alive w k t /\ holdsb (w_heap w) t p d /\ alloc_shape t = s /\ allowed_shape t = s
  | Emptied => alive w k blank
  end.

Lemma holds_al w k v : holds w k v -> al w k.
Proof. destruct v; cbn; [intros []|intros (t & p & A & _); eexists; eauto|eexists; eauto]. Qed.

Lemma al_lt w k : al w k -> k < length (w_ts w).
Proof. intros [t A]. unfold alive in A. now apply nth_error_lt in A. Qed.

(** the buffer of a tensor other than the one an operation works on *)
Lemma frame_local w i t h' t' k v : Inv w -> local (w_heap w) t h' t' -> raw t = None \/ alive w i t -> k <> i -> holds w k v ->
  forall w', w_heap w' = h' -> (forall x, alive w k x -> alive w' k x) -> holds w' k v.
Proof.
  intros HI L HA N Hk w' Eh Ka. destruct v as [|s d|]; cbn in *; [contradiction| |auto].
  destruct Hk as (x & p & A & B & S1 & S2). exists x, p. split; auto. split; auto. rewrite Eh.
  destruct B as [R [Hp [Le D]]]. split; auto. split; [|auto].
  apply (local_frame (w_heap w) t h' t' i k p d w HI eq_refl L HA N x); [split; auto|exact Hp].
Qed.

Lemma destroy_ok w k : Inv w -> al w k ->
  exists w', step zero junk w (ODestroy k) = Ok w' /\ Inv w' /\ length (w_ts w') = length (w_ts w) /\
    (forall k' v, k' <> k -> holds w k' v -> holds w' k' v) /\ (forall k', al w' k' <-> al w k' /\ k' <> k).
Proof.
  intros HI [t A]. cbn [step]. rewrite (lookup_ok w k t A). cbn [bind]. unfold t_destroy.
  destruct (local_free (w_heap w) t [] [] (proj1 HI k t A)) as [h' [E L]]. rewrite E. cbn [bind].
  exists (put w h' k None). split; auto. split; [now apply (Inv_destroy w k t)|].
  split; [cbn [put w_ts]; apply length_set_nth|]. split.
  - intros k' v N H. apply (frame_local w k t h' (mkT None [] []) k' v HI L (or_intror A) N H); auto.
    intros x Hx. now apply frame_put.
  - intros k'. unfold al, alive, put; cbn [w_ts]. destruct (Nat.eq_dec k' k) as [->|N].
    + rewrite nth_error_set_nth_eq by (unfold alive in A; now apply nth_error_lt in A). split; [intros [x X]; discriminate|intros [_ X]; contradiction].
    + rewrite nth_error_set_nth_neq by auto. tauto.
Qed.

Lemma al_add w h t k : al (add w h t) k <-> al w k \/ k = length (w_ts w).
Proof.
  unfold al, alive, add; cbn [w_ts]. split.
  - intros [x X]. destruct (Nat.lt_ge_cases k (length (w_ts w))) as [H|H].
    + rewrite nth_error_app1 in X by auto. eauto.
    + right. pose proof (nth_error_lt _ _ _ X) as Y. rewrite app_length in Y. cbn in Y. lia.
  - intros [[x X]| -> ].
    + exists x. rewrite nth_error_app1; auto. now apply nth_error_lt in X.
    + exists t. now rewrite nth_error_app2, Nat.sub_diag by lia.
Qed.

Lemma alive_add_new (w : world T) h t : alive (add w h t) (length (w_ts w)) t.
Proof. unfold alive, add; cbn [w_ts]. now rewrite nth_error_app2, Nat.sub_diag by lia. Qed.

Lemma copy_ok w k v : Inv w -> holds w k v ->
  exists w', step zero junk w (OCopy k false) = Ok w' /\ Inv w' /\ holds w' (length (w_ts w)) v /\
    (forall k' v', holds w k' v' -> holds w' k' v') /\ (forall k', al w' k' <-> al w k' \/ k' = length (w_ts w)).
Proof.
  intros HI H. pose proof (holds_al _ _ _ H) as Lk.
  assert (E : exists t, alive w k t /\ match v with Unset => False | Val s d => exists p, holdsb (w_heap w) t p d /\ alloc_shape t = s /\ allowed_shape t = s | Emptied => t = blank end).
  { destruct v; cbn in H; [contradiction| |eauto]. destruct H as (t & p & A & B & S1 & S2). eauto 8. }
  destruct E as (t & A & V). cbn [step]. rewrite (lookup_ok w k t A). cbn [bind].
  destruct (t_copy_helper_ok junk (w_heap w) blank t false) as [h' [t' [E [L [Sa [Sb [Hc Hn]]]]]]].
  { intros q; discriminate. } { apply (proj1 HI k t A). } { discriminate. }
  rewrite E. cbn [bind fst snd]. exists (add w h' t'). split; auto. split; [now apply Inv_add|]. split; [|split].
  - destruct v as [|s d|]; [contradiction| |].
    + destruct V as (p & B & S1 & S2). pose proof (holdsb_alloc _ _ _ _ B) as Al. destruct B as [R [Hp [Le D]]].
      destruct (Hc Al eq_refl p d R Hp) as [q [Rq Hq]]. exists t', q. split; [apply alive_add_new|]. split; [|split; congruence].
      split; auto. split; auto. rewrite Sa. auto.
    + subst t. cbn. assert (X : t' = blank).
      { destruct t' as [r a b]. cbn in *. rewrite Hn by reflexivity. subst. reflexivity. }
      rewrite <- X. apply alive_add_new.
  - intros k' v' H'. apply (frame_local w (S k') blank h' t' k' v' HI L); auto. intros x X. now apply frame_add.
  - intros k'. apply al_add.
Qed.

Lemma move_ok w k v : Inv w -> holds w k v ->
  exists w', step zero junk w (OMove k) = Ok w' /\ Inv w' /\ holds w' (length (w_ts w)) v /\ holds w' k Emptied /\
    (forall k' v', k' <> k -> holds w k' v' -> holds w' k' v') /\ (forall k', al w' k' <-> al w k' \/ k' = length (w_ts w)).
Proof.
  intros HI H. pose proof (al_lt _ _ (holds_al _ _ _ H)) as Lk.
  assert (E : exists t, alive w k t /\ match v with Unset => False | Val s d => exists p, holdsb (w_heap w) t p d /\ alloc_shape t = s /\ allowed_shape t = s | Emptied => t = blank end).
  { destruct v; cbn in H; [contradiction| |eauto]. destruct H as (t & p & A & B & S1 & S2). eauto 8. }
  destruct E as (t & A & V). cbn [step]. rewrite (lookup_ok w k t A). cbn [bind t_move_helper hfree raw blank].
  set (t' := mkT (raw t) (alloc_shape t) (allowed_shape t)).
  assert (Ew : length (w_ts (put w (w_heap w) k (Some (mkT None [] [])))) = length (w_ts w)) by (cbn [put w_ts]; apply length_set_nth).
  eexists. split; [reflexivity|]. split; [|split; [|split; [|split]]].
  - apply (Inv_transfer_new w k t [] []); auto.
  - pose proof (alive_add_new (put w (w_heap w) k (Some (mkT None [] []))) (w_heap w) t') as An. rewrite Ew in An.
    destruct v as [|s d|]; [contradiction| |].
    + destruct V as (p & B & S1 & S2). exists t', p. split; [exact An|]. split; [exact B|]. auto.
    + subst t. exact An.
  - cbn. apply frame_add. now apply (alive_put w (w_heap w) k t).
  - intros k' v' N H'. destruct v' as [|s d|]; cbn in *; [contradiction| |].
    + destruct H' as (x & p & X & Y). exists x, p. split; auto. apply frame_add. now apply frame_put.
    + apply frame_add. now apply frame_put.
  - intros k'. rewrite al_add, Ew. unfold al, alive, put; cbn [w_ts]. destruct (Nat.eq_dec k' k) as [->|N].
    + rewrite nth_error_set_nth_eq by auto. split; [intros _; left; eauto|]. intros _. left. eauto.
    + rewrite nth_error_set_nth_neq by auto. tauto.
Qed.

(** fill a tensor that has a buffer *)
Lemma fill_ok w k t p b ini s : Inv w -> alive w k t -> holdsb (w_heap w) t p b -> alloc_shape t = s -> allowed_shape t = s ->
  exists h, run_init (w_heap w) t ini = Ok h /\ let w' := mkW h (w_ts w) in
    Inv w' /\ holds w' k (Val s (map ini (seq 0 (n_elems s)))) /\ (forall k' v, k' <> k -> holds w k' v -> holds w' k' v) /\
    (forall k', al w' k' <-> al w k').
Proof.
  intros HI A B S1 S2. rewrite (run_init_ok _ _ _ _ ini B). eexists. split; [reflexivity|]. cbv zeta.
  assert (Le : length (map ini (seq 0 (n_elems (alloc_shape t)))) = length b).
  { rewrite map_length, seq_length. destruct B as [_ [_ [Le _]]]. now rewrite Le. }
  pose proof (local_hput _ _ _ _ _ B Le) as L. pose proof (holdsb_put _ _ _ _ _ B Le) as B'.
  split; [|split; [|split]].
  - pose proof (Inv_update w k t _ t HI A L) as Q. unfold put in Q. unfold alive in A.
    assert (E : set_nth k (Some t) (w_ts w) = w_ts w).
    { apply nth_error_ext_lt; [apply length_set_nth|]. intros j Hj. destruct (Nat.eq_dec j k) as [->|N].
      - rewrite A. apply nth_error_set_nth_eq. now apply nth_error_lt in A.
      - rewrite nth_error_set_nth_neq by congruence. reflexivity. }
    now rewrite E in Q.
  - subst s. exists t, p. split; auto.
  - intros k' v N H. apply (frame_local w k t _ t k' v HI L (or_intror A) N H); auto.
  - intros k'. reflexivity.
Qed.

Lemma new_fill_ok w s ini : Inv w -> defined s ->
  exists w1 t h, step zero junk w (ONew s) = Ok w1 /\ lookup w1 (length (w_ts w)) = Ok t /\ run_init (w_heap w1) t ini = Ok h /\
    let w' := mkW h (w_ts w1) in
    Inv w' /\ holds w' (length (w_ts w)) (Val s (map ini (seq 0 (n_elems s)))) /\
    (forall k' v, holds w k' v -> holds w' k' v) /\ (forall k', al w' k' <-> al w k' \/ k' = length (w_ts w)).
Proof.
  intros HI D. destruct (t_new_ok junk (w_heap w) s) as [L P]. pose proof (proj2 (is_fully_defined_iff s) D) as F.
  destruct (P F) as [p [R Hp]]. cbn [step]. destruct (t_new junk (w_heap w) s) as [h1 t1] eqn:E. cbn [fst snd] in *.
  assert (S1 : alloc_shape t1 = s /\ allowed_shape t1 = s).
  { unfold t_new in E. rewrite F in E. destruct (halloc junk (w_heap w) (n_elems s)). injection E as _ <-. auto. }
  destruct S1 as [S1 S2]. pose proof (Inv_add w h1 t1 HI L) as HI1.
  destruct (fill_ok (add w h1 t1) (length (w_ts w)) t1 p (repeat junk (n_elems s)) ini s HI1) as [h [Eh [I2 [H2 [Fr A2]]]]]; auto.
  - apply alive_add_new.
  - split; auto. split; auto. rewrite S1. split; auto. apply repeat_length.
  - exists (add w h1 t1), t1, h. split; auto. split; [apply lookup_ok, alive_add_new|]. split; auto. cbv zeta. split; auto. split; auto. split.
    + intros k' v H. apply Fr; [pose proof (al_lt _ _ (holds_al _ _ _ H)); lia|].
      apply (frame_local w (S k') blank h1 t1 k' v HI L); auto. intros x X. now apply frame_add.
    + intros k'. rewrite A2. apply al_add.
Qed.

Lemma reshape_fill_ok w k s0 d s ini : Inv w -> holds w k (Val s0 d) -> defined s -> layout_eqb s0 s = false ->
  exists w1 t h, step zero junk w (OSetShape k s) = Ok w1 /\ lookup w1 k = Ok t /\ run_init (w_heap w1) t ini = Ok h /\
    let w' := mkW h (w_ts w1) in
    Inv w' /\ holds w' k (Val s (map ini (seq 0 (n_elems s)))) /\
    (forall k' v, k' <> k -> holds w k' v -> holds w' k' v) /\ (forall k', al w' k' <-> al w k').
Proof.
  intros HI (t & p & A & B & S1 & S2) D Ly. pose proof (holdsb_alloc _ _ _ _ B) as Al. pose proof B as [R [Hp [Le D0]]]. rewrite S1 in D0.
  pose proof (layout_compat s0 s D0 D) as C. rewrite Ly in C.
  destruct (t_set_shape_ok zero junk (w_heap w) t s (proj1 HI k t A)) as [c [h' [t' [Ec [E [L Eal]]]]]].
  assert (X : exists b', t' = mkT (Some (length (w_heap w))) s s /\ nth_error h' (length (w_heap w)) = Some (Some b') /\ length b' = n_elems s).
  { unfold t_set_shape in E. rewrite S2, C in E. cbn [bind negb orb] in E. cbn [raw alloc_shape allowed_shape] in E. rewrite S1, compat_sym, C in E.
    cbn [bind negb] in E. replace (is_alloc (mkT (raw t) s0 s)) with true in E by (symmetry; rewrite <- S1; exact Al). cbn [andb] in E.
    rewrite (proj2 (is_fully_defined_iff s) D) in E. cbn [bind] in E.
    destruct (allocate_shape_moves zero junk (w_heap w) (mkT (raw t) s0 s) s p d) as [h2 [b' [E2 [N2 [L2 _]]]]]; auto.
    - cbn. congruence.
    - cbn. now rewrite compat_sym.
    - cbn. apply compat_refl.
    - rewrite E2 in E. cbn [bind allowed_shape] in E. injection E as <- <-. eauto. }
  destruct X as [b' [-> [Hb' Lb']]].
  cbn [step]. rewrite (lookup_ok w k t A). cbn [bind]. rewrite E. cbn [bind fst snd].
  set (t' := mkT (Some (length (w_heap w))) s s) in *.
  pose proof (Inv_update w k t h' t' HI A L) as HI1. pose proof (alive_put w h' k t t' A) as A1.
  destruct (fill_ok (put w h' k (Some t')) k t' (length (w_heap w)) b' ini s HI1 A1) as [h [Eh [I2 [H2 [Fr A2]]]]]; auto.
  { split; auto. }
  exists (put w h' k (Some t')), t', h. split; auto. split; [now apply lookup_ok|]. split; auto. cbv zeta. split; auto. split; auto. split.
  - intros k' v N H. apply Fr; auto. apply (frame_local w k t h' t' k' v HI L (or_intror A) N H); auto. intros x X. now apply frame_put.
  - intros k'. rewrite A2. unfold al, alive, put; cbn [w_ts]. destruct (Nat.eq_dec k' k) as [->|N].
    + rewrite nth_error_set_nth_eq by (unfold alive in A; now apply nth_error_lt in A). split; [intros _; eauto|]. intros _. eauto.
    + rewrite nth_error_set_nth_neq by auto. tauto.
Qed.

(** ---- who owns what ---- *)

Definition at_ (gens : list (option gen)) (i : nat) (g : gen) : Prop := nth_error gens i = Some (Some g).

Definition Exact (f : gen -> option nat) (L : nat -> Prop) (gens : list (option gen)) : Prop :=
  (forall i i' g g' k, at_ gens i g -> at_ gens i' g' -> f g = Some k -> f g' = Some k -> i = i') /\
  (forall k, L k <-> exists i g, at_ gens i g /\ f g = Some k).

Lemma at_set gens i x j g : i < length gens -> (at_ (set_nth i x gens) j g <-> (j = i /\ x = Some g) \/ (j <> i /\ at_ gens j g)).
Proof.
  intros Hi. unfold at_. destruct (Nat.eq_dec j i) as [->|N].
  - rewrite nth_error_set_nth_eq by auto. split; [intros H; injection H as ->; auto|]. intros [[_ ->]|[H _]]; [auto|contradiction].
  - rewrite nth_error_set_nth_neq by auto. split; auto. intros [[H _]|[_ H]]; [contradiction|auto].
Qed.

Lemma at_lt gens i g : at_ gens i g -> i < length gens.
Proof. intros H. now apply nth_error_lt in H. Qed.

Lemma at_app gens g0 j g : at_ (gens ++ [Some g0]) j g <-> (j = length gens /\ g = g0) \/ at_ gens j g.
Proof.
  unfold at_. destruct (Nat.lt_ge_cases j (length gens)) as [H|H].
  - rewrite nth_error_app1 by auto. split; auto. intros [[E _]|E]; [lia|auto].
  - rewrite nth_error_app2 by auto. rewrite (proj2 (nth_error_None gens j)) by auto. split.
    + destruct (j - length gens) as [|q] eqn:E; cbn; intros X; [|destruct q; discriminate]. injection X as ->. left. split; auto; lia.
    + intros [[-> ->]|X]; [|discriminate]. now rewrite Nat.sub_diag.
Qed.

Definition fo (f : gen -> option nat) (x : option gen) : option nat := match x with Some g => f g | None => None end.

Lemma Exact_set f L gens i g x (L' : nat -> Prop) :
  Exact f L gens -> at_ gens i g ->
  (forall k, fo f x = Some k -> ~ L k \/ f g = Some k) ->
  (forall k, L' k <-> (L k /\ f g <> Some k) \/ fo f x = Some k) ->
  Exact f L' (set_nth i x gens).
Proof.
  intros [U X] A Nw Lw. pose proof (at_lt _ _ _ A) as Hi. split.
  - intros j j' h h' k Hj Hj' E E'. apply at_set in Hj, Hj'; auto. destruct Hj as [[-> Ex]|[N Hj]], Hj' as [[-> Ex']|[N' Hj']]; auto.
    + rewrite Ex in Nw. destruct (Nw k E) as [Q|Q]; [destruct Q; apply X; eauto|]. exfalso. apply N'. symmetry. eapply U; eauto.
    + rewrite Ex' in Nw. destruct (Nw k E') as [Q|Q]; [destruct Q; apply X; eauto|]. exfalso. apply N. symmetry. eapply U; eauto.
    + eapply U; eauto.
  - intros k. rewrite Lw. split.
    + intros [[Hk N]|E].
      * apply X in Hk. destruct Hk as (j & h & Hj & E). exists j, h. split; auto. apply at_set; auto. right. split; auto. intros ->.
        unfold at_ in *. congruence.
      * destruct x as [h|]; [|discriminate]. exists i, h. split; auto. apply at_set; auto.
    + intros (j & h & Hj & E). apply at_set in Hj; auto. destruct Hj as [[-> ->]|[N Hj]]; [right; exact E|]. left.
      split; [apply X; eauto|]. intros Q. apply N. eapply U; eauto.
Qed.

Lemma Exact_app f L gens g (L' : nat -> Prop) :
  Exact f L gens -> (forall k, f g = Some k -> ~ L k) -> (forall k, L' k <-> L k \/ f g = Some k) -> Exact f L' (gens ++ [Some g]).
Proof.
  intros [U X] Nw Lw. split.
  - intros j j' h h' k Hj Hj' E E'. apply at_app in Hj, Hj'. destruct Hj as [[-> ->]|Hj], Hj' as [[-> ->]|Hj']; auto.
    + destruct (Nw k E). apply X; eauto.
    + destruct (Nw k E'). apply X; eauto.
    + eapply U; eauto.
  - intros k. rewrite Lw. split.
    + intros [Hk|E]; [apply X in Hk; destruct Hk as (j & h & Hj & E)|].
      * exists j, h. split; auto. apply at_app; auto.
      * exists (length gens), g. split; auto. apply at_app; auto.
    + intros (j & h & Hj & E). apply at_app in Hj. destruct Hj as [[-> ->]|Hj]; [auto|]. left. apply X; eauto.
Qed.

Lemma Exact_ext f L L' gens : Exact f L gens -> (forall k, L' k <-> L k) -> Exact f L' gens.
Proof. intros [U X] E. split; auto. intros k. rewrite E. apply X. Qed.

Definition il (inits : list (option nat)) (k : nat) : Prop := exists id, nth_error inits k = Some (Some id).


(** ---- the simulation ---- *)

Definition okd (w : world T) (o : option nat) (v : aval) : Prop :=
  match v with Unset => o = None | _ => exists k, o = Some k /\ holds w k v end.

Definition ok (w : world T) (inits : list (option nat)) (n : nat) (g : gen) (a : @agen T) : Prop :=
  g_dep g = a_dep a /\ (forall j, a_dep a = Some j -> j < n) /\
  (exists m, g_init g = Some m /\ nth_error inits m = Some (Some (a_init a))) /\
  okd w (g_data g) (a_val a) /\ (a_val a = Emptied -> a_dep a = None).

Definition ok1 w inits n (x : option gen) (y : option agen) : Prop :=
  match x, y with Some g, Some a => ok w inits n g a | None, None => True | _, _ => False end.

Definition Rel (W : @gworld T) (A : @astate T) : Prop :=
  Inv (gw_w W) /\ (gw_deps W = a_deps A /\ gw_calls W = a_calls A /\ gw_log W = a_log A) /\
  length (gw_gens W) = length (a_gens A) /\
  (forall i x y, nth_error (gw_gens W) i = Some x -> nth_error (a_gens A) i = Some y -> ok1 (gw_w W) (gw_inits W) (length (a_deps A)) x y) /\
  Exact g_data (al (gw_w W)) (gw_gens W) /\ Exact g_init (il (gw_inits W)) (gw_gens W).

Lemma Rel_init : Rel ginit ainit.
Proof.
  split; [apply Inv_init|]. split; [auto|]. split; auto. split; [intros [|i] x y H; discriminate|].
  split; (split; [intros [|i] i' g g' k H; discriminate|]); intros k; (split; [|intros ([|i] & g & H & _); discriminate]).
  - intros [t H]. destruct k; discriminate.
  - intros [t H]. destruct k; discriminate.
Qed.

(** looking a generator up *)
Lemma rel_get W A i : Rel W A ->
  match aget A i with
  | Some a => exists g, at_ (gw_gens W) i g /\ gget W i = Ok g /\ nth_error (a_gens A) i = Some (Some a) /\ ok (gw_w W) (gw_inits W) (length (a_deps A)) g a
  | None => gget W i = UB
  end.
Proof.
  intros (_ & _ & Ln & P & _). unfold aget, gget, at_. destruct (nth_error (a_gens A) i) as [y|] eqn:Ey.
  - destruct (nth_error (gw_gens W) i) as [x|] eqn:Ex; [|apply nth_error_None in Ex; apply nth_error_lt in Ey; lia].
    specialize (P i x y Ex Ey). destruct x as [g|], y as [a|]; cbn in P; try contradiction; eauto.
  - apply nth_error_None in Ey. rewrite (proj2 (nth_error_None (gw_gens W) i)) by lia. reflexivity.
Qed.

Lemma ok_frame w inits w' inits' n n' g a : ok w inits n g a -> n <= n' ->
  (forall k v, g_data g = Some k -> holds w k v -> holds w' k v) ->
  (forall m id, g_init g = Some m -> nth_error inits m = Some (Some id) -> nth_error inits' m = Some (Some id)) -> ok w' inits' n' g a.
Proof.
  intros (D & J & (m & M & Q) & V & E) Hn Hd Hi. split; auto. split; [intros j X; specialize (J j X); lia|]. split; [eauto|]. split; auto.
  unfold okd in *. destruct (a_val a); auto; destruct V as [k [K H]]; eauto.
Qed.

Lemma nth_set_inv {X} i (v : X) l j x : nth_error (set_nth i v l) j = Some x -> (j = i /\ x = v) \/ (j <> i /\ nth_error l j = Some x).
Proof.
  intros H. destruct (Nat.eq_dec j i) as [->|N].
  - left. split; auto. pose proof (nth_error_lt _ _ _ H) as Q. rewrite length_set_nth in Q. rewrite nth_error_set_nth_eq in H by auto. congruence.
  - right. split; auto. now rewrite nth_error_set_nth_neq in H by auto.
Qed.

Lemma nth_app_inv {X} l (v : X) j x : nth_error (l ++ [v]) j = Some x -> (j = length l /\ x = v) \/ (j < length l /\ nth_error l j = Some x).
Proof.
  intros H. destruct (Nat.lt_ge_cases j (length l)) as [Q|Q].
  - right. split; auto. now rewrite nth_error_app1 in H by auto.
  - left. pose proof (nth_error_lt _ _ _ H) as Z. rewrite app_length in Z. cbn in Z. assert (j = length l) by lia. subst j.
    rewrite nth_error_app2, Nat.sub_diag in H by lia. cbn in H. split; congruence.
Qed.

Lemma ok1_frame w inits w' inits' n n' gens i x y (Hx : nth_error gens i = Some x) : ok1 w inits n x y -> n <= n' ->
  (forall g k v, at_ gens i g -> g_data g = Some k -> holds w k v -> holds w' k v) ->
  (forall g m id, at_ gens i g -> g_init g = Some m -> nth_error inits m = Some (Some id) -> nth_error inits' m = Some (Some id)) -> ok1 w' inits' n' x y.
Proof.
  intros O Hn Hd Hi. destruct x as [g|], y as [a|]; cbn in *; auto. apply (ok_frame w inits w' inits' n n'); auto.
  - intros k v. apply Hd. exact Hx.
  - intros m id. apply Hi. exact Hx.
Qed.

Lemma il_app inits id k : il (inits ++ [Some id]) k <-> il inits k \/ k = length inits.
Proof.
  unfold il. split.
  - intros [x X]. apply nth_app_inv in X. destruct X as [[-> _]|[_ X]]; eauto.
  - intros [[x X]| ->].
    + exists x. rewrite nth_error_app1; auto. now apply nth_error_lt in X.
    + exists id. now rewrite nth_error_app2, Nat.sub_diag by lia.
Qed.

Lemma il_set inits n k : n < length inits -> (il (set_nth n None inits) k <-> il inits k /\ k <> n).
Proof.
  intros L. unfold il. split.
  - intros [x X]. apply nth_set_inv in X. destruct X as [[_ X]|[N X]]; [discriminate|eauto].
  - intros [[x X] N]. exists x. now rewrite nth_error_set_nth_neq by auto.
Qed.

Lemma il_lt inits k : il inits k -> k < length inits.
Proof. intros [id H]. now apply nth_error_lt in H. Qed.

(** ---- deleting, copying and moving what a generator owns ---- *)

Lemma idel_ok inits m id : nth_error inits m = Some (Some id) -> idel inits (Some m) = Ok (set_nth m None inits).
Proof. intros H. unfold idel, iget. rewrite H. reflexivity. Qed.

Lemma ddel_ok w o v : Inv w -> okd w o v ->
  exists w', ddel zero junk w o = Ok w' /\ Inv w' /\ length (w_ts w') = length (w_ts w) /\
    (forall k' v', o <> Some k' -> holds w k' v' -> holds w' k' v') /\ (forall k', al w' k' <-> al w k' /\ o <> Some k').
Proof.
  intros HI V. assert (X : o = None \/ exists k, o = Some k /\ holds w k v) by (unfold okd in V; destruct v; auto).
  destruct X as [->|[k [-> H]]].
  - exists w. split; auto. split; auto. split; auto. split; auto. intros k'. split; [intros Q; split; [auto|discriminate]|tauto].
  - destruct (destroy_ok w k HI (holds_al _ _ _ H)) as [w' [E [I [L [F Al]]]]]. exists w'. split; auto. split; auto. split; auto. split.
    + intros k' v' N. apply F. congruence.
    + intros k'. rewrite Al. split; intros [Q N]; split; congruence.
Qed.

Lemma ok_clean w inits n g a : Inv w -> ok w inits n g a ->
  exists w' m, g_init g = Some m /\ nth_error inits m = Some (Some (a_init a)) /\
    (forall d, clean_up zero junk w inits (mkG d (g_init g) (g_data g)) = Ok (w', set_nth m None inits, mkG d None None)) /\
    Inv w' /\ length (w_ts w') = length (w_ts w) /\
    (forall k' v', g_data g <> Some k' -> holds w k' v' -> holds w' k' v') /\ (forall k', al w' k' <-> al w k' /\ g_data g <> Some k').
Proof.
  intros HI (D & J & (m & M & Q) & V & E). destruct (ddel_ok w (g_data g) (a_val a) HI V) as [w' [Ed [I [L [F Al]]]]].
  exists w', m. split; auto. split; auto. split; [|auto].
  intros d. unfold clean_up. cbn [g_init g_data g_dep]. rewrite M. rewrite (idel_ok inits m (a_init a) Q). cbn [bind]. rewrite Ed. reflexivity.
Qed.

Lemma ok_copy w inits n o a d : Inv w -> ok w inits n o a ->
  exists w' g, copy_helper zero junk w inits (mkG d None None) o = Ok (w', inits ++ [Some (a_init a)], g) /\
    g_dep g = d /\ g_init g = Some (length inits) /\ Inv w' /\ okd w' (g_data g) (a_val a) /\
    (forall k' v', holds w k' v' -> holds w' k' v') /\
    (forall k', g_data g = Some k' -> ~ al w k') /\ (forall k', al w' k' <-> al w k' \/ g_data g = Some k').
Proof.
  intros HI (D & J & (m & M & Q) & V & E). unfold copy_helper. cbn [g_init g_data g_dep ddel idel bind]. rewrite M. unfold iget. rewrite Q. cbn [bind].
  assert (X : (a_val a = Unset /\ g_data o = None) \/ exists k, g_data o = Some k /\ holds w k (a_val a)).
  { unfold okd in V. destruct (a_val a); auto. }
  destruct X as [[Ev ->]|[k [-> H]]]; cbn [bind fst snd].
  - eexists w, _. split; [reflexivity|]. cbn [g_dep g_init g_data]. split; auto. split; auto. split; auto. rewrite Ev. split; [reflexivity|].
    split; auto. split; [discriminate|]. intros k'. split; [auto|]. intros [Q'|Q']; [auto|discriminate].
  - destruct (copy_ok w k (a_val a) HI H) as [w' [Es [I [H' [F Al]]]]]. rewrite Es. cbn [bind fst snd].
    eexists w', _. split; [reflexivity|]. cbn [g_dep g_init g_data]. split; auto. split; auto. split; auto. split.
    { unfold okd. destruct (a_val a); [contradiction| |]; eauto. }
    split; auto. split.
    + intros k' X. injection X as <-. intros Al'. apply al_lt in Al'. lia.
    + intros k'. rewrite Al. split; (intros [X|X]; [auto|right; congruence]).
Qed.

Lemma ok_move w inits n o a d : Inv w -> ok w inits n o a ->
  exists w' g, move_helper zero junk w inits (mkG d None None) o = Ok (w', inits ++ [Some (a_init a)], g) /\
    g_dep g = d /\ g_init g = Some (length inits) /\ Inv w' /\ okd w' (g_data g) (a_val a) /\ okd w' (g_data o) (a_val (remains a)) /\
    (forall k' v', g_data o <> Some k' -> holds w k' v' -> holds w' k' v') /\
    (forall k', g_data g = Some k' -> ~ al w k') /\ (forall k', al w' k' <-> al w k' \/ g_data g = Some k').
Proof.
  intros HI (D & J & (m & M & Q) & V & E). unfold move_helper. cbn [g_init g_data g_dep ddel idel bind]. rewrite M. unfold iget. rewrite Q. cbn [bind].
  assert (X : (a_val a = Unset /\ g_data o = None) \/ exists k, g_data o = Some k /\ holds w k (a_val a)).
  { unfold okd in V. destruct (a_val a); auto. }
  destruct X as [[Ev ->]|[k [-> H]]]; cbn [bind fst snd].
  - eexists w, _. split; [reflexivity|]. cbn [g_dep g_init g_data remains a_val]. split; auto. split; auto. split; auto. rewrite Ev. split; [reflexivity|]. split; [reflexivity|].
    split; auto. split; [discriminate|]. intros k'. split; [auto|]. intros [Q'|Q']; [auto|discriminate].
  - destruct (move_ok w k (a_val a) HI H) as [w' [Es [I [H' [He [F Al]]]]]]. rewrite Es. cbn [bind fst snd].
    eexists w', _. split; [reflexivity|]. cbn [g_dep g_init g_data remains a_val]. split; auto. split; auto. split; auto. split.
    { unfold okd. destruct (a_val a); [contradiction| |]; eauto. }
    split; [unfold okd; destruct (a_val a); [contradiction| |]; eauto|].
    split; [intros k' v' N; apply F; congruence|]. split.
    + intros k' X. injection X as <-. intros Al'. apply al_lt in Al'. lia.
    + intros k'. rewrite Al. split; (intros [X|X]; [auto|right; congruence]).
Qed.


Lemma neq_own f L gens i j g g' k : Exact f L gens -> at_ gens i g -> at_ gens j g' -> j <> i -> f g' = Some k -> f g <> Some k.
Proof. intros [U _] A A' N E E'. apply N. eapply U; eauto. Qed.

Lemma sim_update W A i : Rel W A ->
  match aupdate draw A i with
  | Some A' => exists W', update zero junk draw W i = Ok W' /\ Rel W' A'
  | None => update zero junk draw W i = UB
  end.
Proof.
  intros HR. pose proof HR as (HI & (Ed & Ec & El) & Ln & P & X1 & X2). pose proof (rel_get W A i HR) as G. unfold aupdate, update.
  destruct (aget A i) as [[dep id v]|] eqn:Ea; [|rewrite G; reflexivity].
  destruct G as [g [Ag [Gg [An O]]]]. rewrite Gg. cbn [bind]. pose proof O as (D & J & (m & M & Q) & V & E). cbn [a_dep a_init a_val] in *. rewrite D.
  destruct dep as [j|]; [|reflexivity]. specialize (J j eq_refl). destruct (rd_lt (a_deps A) j J) as [d [Hd Rd]]. rewrite Hd, Ed, Rd. cbn [bind].
  destruct d as [s good]. unfold refills. cbn [fst snd]. destruct good; cbn [negb orb andb]; [|eauto].
  destruct (is_fully_defined s) eqn:F; cbn [negb orb andb]; [|eauto]. pose proof (proj1 (is_fully_defined_iff s) F) as Ds.
  pose proof (at_lt _ _ _ Ag) as Hi.
  assert (Fin : forall w' g', Inv w' -> g_dep g' = Some j -> g_init g' = Some m -> (exists k, g_data g' = Some k /\ holds w' k (Val s (fresh_data draw id (a_calls A) s))) ->
    (forall k' v', g_data g <> Some k' -> holds (gw_w W) k' v' -> holds w' k' v') ->
    (forall k', g_data g' = Some k' -> ~ al (gw_w W) k' \/ g_data g = Some k') ->
    (forall k', al w' k' <-> (al (gw_w W) k' /\ g_data g <> Some k') \/ g_data g' = Some k') ->
    Rel (mkGW w' (gw_inits W) (set_nth i (Some g') (gw_gens W)) (gw_deps W) (S (gw_calls W)) (gw_log W ++ [i]))
        (anotify (acount (aset A i (Some (mkA (Some j) id (Val s (fresh_data draw id (a_calls A) s)))))) i)).
  { intros w' g' HI' D' M' Hk Fr Nw Aw. split; [exact HI'|]. cbn [gw_deps gw_calls gw_log gw_gens gw_w gw_inits anotify acount aset a_gens a_deps a_calls a_log].
    split; [split; [auto|split; congruence]|]. split; [now rewrite !length_set_nth|]. split; [|split].
    - intros i' x y Hx Hy. apply nth_set_inv in Hx, Hy. destruct Hx as [[-> ->]|[N Hx]], Hy as [[N' ->]|[N' Hy]]; try congruence.
      + cbn. split; [exact D'|]. split; [intros j' Hj'; cbn in Hj'; congruence|]. split; [eauto|]. split; [exact Hk|discriminate].
      + apply (ok1_frame (gw_w W) (gw_inits W) w' (gw_inits W) (length (a_deps A)) (length (a_deps A)) (gw_gens W) i' x y Hx (P i' x y Hx Hy)); auto.
        intros g2 k' v' A2 K. apply Fr. apply (neq_own g_data _ _ i i' g g2 k' X1 Ag A2 N K).
    - apply (Exact_set g_data _ _ i g (Some g') _ X1 Ag); auto.
    - apply (Exact_set g_init _ _ i g (Some g') _ X2 Ag).
      + cbn. intros k. rewrite M', M. auto.
      + cbn. intros k. rewrite M', M. split; [|intros [[H _]|H]; [auto|injection H as <-; eexists; eauto]].
        intros H. destruct (Nat.eq_dec k m); [right; congruence|left; split; congruence]. }
  assert (Fl : forall w k t h dd dt, lookup w k = Ok t -> run_init (w_heap w) t (draw id (gw_calls W)) = Ok h ->
    fill draw (mkGW w (gw_inits W) (gw_gens W) (a_deps A) (gw_calls W) (gw_log W)) (mkG dd (Some m) dt) k = Ok (mkW h (w_ts w))).
  { intros w k t h dd dt Lk Rk. unfold fill. cbn [g_init gw_inits gw_w gw_calls]. unfold iget. rewrite Q. cbn [bind]. rewrite Lk. cbn [bind]. rewrite Rk. reflexivity. }
  assert (Vc : (v = Unset /\ g_data g = None) \/ (exists s0 d0 k, v = Val s0 d0 /\ g_data g = Some k /\ holds (gw_w W) k (Val s0 d0))).
  { unfold okd in V. destruct v as [|s0 d0|]; auto; [destruct V as [k [K H]]; right; eauto 8|]. specialize (E eq_refl). discriminate. }
  destruct Vc as [[-> K]|(s0 & d0 & k & -> & K & H)].
  - rewrite K. cbn [g_data]. destruct (new_fill_ok (gw_w W) s (draw id (gw_calls W)) HI Ds) as (w1 & t & h & E1 & E2 & E3 & I1 & H1 & F1 & A1).
    rewrite E1. cbn [bind g_data]. rewrite M. rewrite (Fl w1 _ t h _ _ E2 E3). cbn [bind]. eexists. split; [reflexivity|].
    rewrite <- Ed. apply Fin; auto.
    + cbn [g_data]. eexists. split; [reflexivity|]. unfold fresh_data. now rewrite <- Ec.
    + cbn [g_data]. intros k' Z. injection Z as <-. left. intros Z. apply al_lt in Z. lia.
    + cbn [g_data]. intros k'. rewrite A1, K. split.
      * intros [Z|Z]; [left; split; [auto|discriminate]|right; congruence].
      * intros [[Z _]|Z]; [auto|right; congruence].
  - rewrite K. pose proof H as (t & p & At & Bt & S1 & S2). rewrite (lookup_ok _ _ _ At). cbn [bind].
    rewrite (holdsb_shape _ _ _ _ Bt), S1. pose proof Bt as (_ & _ & _ & D0). rewrite S1 in D0. rewrite (layout_compat s0 s D0 Ds). cbn [bind].
    destruct (layout_eqb s0 s) eqn:Ly; cbn [negb]; [eauto|].
    destruct (reshape_fill_ok (gw_w W) k s0 d0 s (draw id (gw_calls W)) HI H Ds Ly) as (w1 & t1 & h & E1 & E2 & E3 & I1 & H1 & F1 & A1).
    rewrite E1. cbn [bind]. destruct g as [gd gi gk]. cbn [g_dep g_init g_data] in *. subst gd gi gk. rewrite (Fl w1 _ t1 h _ _ E2 E3). cbn [bind]. eexists. split; [reflexivity|].
    rewrite <- Ed. apply Fin; auto.
    + cbn [g_data]. eexists. split; [reflexivity|]. unfold fresh_data. now rewrite <- Ec.
    + cbn [g_data]. intros k'. rewrite A1. split.
      * intros Z. destruct (Nat.eq_dec k' k); [right; congruence|left; split; congruence].
      * intros [[Z _]|Z]; [auto|]. injection Z as <-. apply (holds_al _ _ _ H).
Qed.


Lemma Rel_deps W A ds : Rel W A -> length (a_deps A) <= length ds ->
  Rel (mkGW (gw_w W) (gw_inits W) (gw_gens W) ds (gw_calls W) (gw_log W)) (mkAS (a_gens A) ds (a_calls A) (a_log A)).
Proof.
  intros (HI & (Ed & Ec & El) & Ln & P & X1 & X2) L. split; [exact HI|]. split; [auto|]. split; [exact Ln|]. split; [|split; auto].
  cbn [gw_gens a_gens gw_w gw_inits a_deps]. intros i x y Hx Hy. specialize (P i x y Hx Hy).
  apply (ok1_frame (gw_w W) (gw_inits W) _ _ (length (a_deps A)) _ (gw_gens W) i x y Hx P L); auto.
Qed.

(** adding a generator that owns new objects *)
Lemma Rel_add W A w' inits' g a : Rel W A -> Inv w' -> ok w' inits' (length (a_deps A)) g a ->
  (forall k' v', holds (gw_w W) k' v' -> holds w' k' v') -> (forall m id, nth_error (gw_inits W) m = Some (Some id) -> nth_error inits' m = Some (Some id)) ->
  (forall k', g_data g = Some k' -> ~ al (gw_w W) k') -> (forall k', al w' k' <-> al (gw_w W) k' \/ g_data g = Some k') ->
  (forall k', g_init g = Some k' -> ~ il (gw_inits W) k') -> (forall k', il inits' k' <-> il (gw_inits W) k' \/ g_init g = Some k') ->
  Rel (mkGW w' inits' (gw_gens W ++ [Some g]) (gw_deps W) (gw_calls W) (gw_log W)) (anew A a).
Proof.
  intros (HI & (Ed & Ec & El) & Ln & P & X1 & X2) HI' O Fr Fi N1 A1 N2 A2. split; [exact HI'|]. split; [auto|].
  cbn [gw_deps gw_calls gw_log gw_gens gw_w gw_inits anew a_gens a_deps a_calls a_log]. split; [rewrite !app_length; cbn; lia|]. split; [|split].
  - intros i x y Hx Hy. apply nth_app_inv in Hx, Hy. destruct Hx as [[-> ->]|[L Hx]], Hy as [[L' ->]|[L' Hy]]; try lia; [exact O|].
    apply (ok1_frame (gw_w W) (gw_inits W) w' inits' (length (a_deps A)) _ (gw_gens W) i x y Hx (P i x y Hx Hy)); auto.
  - apply (Exact_app g_data _ _ g _ X1); auto.
  - apply (Exact_app g_init _ _ g _ X2); auto.
Qed.

Definition opt_dec (a b : option nat) : {a = b} + {a <> b}.
Proof. decide equality. apply Nat.eq_dec. Defined.

Lemma set_set_length {X} (l : list X) i j a b : length (set_nth i a (set_nth j b l)) = length l.
Proof. now rewrite !length_set_nth. Qed.

Lemma il_app_old inits x m (id : nat) : nth_error inits m = Some (Some id) -> nth_error (inits ++ [x]) m = Some (Some id).
Proof. intros H. rewrite nth_error_app1; auto. now apply nth_error_lt in H. Qed.

Lemma sim_step W A e : Rel W A ->
  match astep draw A e with
  | Some A' => exists W', gstep zero junk draw W e = Ok W' /\ Rel W' A'
  | None => gstep zero junk draw W e = UB
  end.
Proof.
  intros HR. pose proof HR as (HI & (Ed & Ec & El) & Ln & P & X1 & X2). destruct e as [s good|j s good|j id|i|i|i|i k|i k|i]; cbn [astep gstep].
  - (* EDep *) eexists. split; [reflexivity|]. rewrite <- Ed. apply Rel_deps; auto. rewrite <- Ed, app_length. lia.
  - (* ESet *) rewrite Ed. destruct (Nat.ltb_spec j (length (a_deps A))) as [L|L].
    + destruct (rd_lt _ _ L) as [x [_ E]]. rewrite E. cbn [bind]. eexists. split; [reflexivity|]. apply Rel_deps; auto. now rewrite length_set_nth.
    + unfold rd. now rewrite (proj2 (nth_error_None (a_deps A) j)).
  - (* EGet *) rewrite Ed. destruct (Nat.ltb_spec j (length (a_deps A))) as [L|L].
    + destruct (rd_lt _ _ L) as [x [_ E]]. rewrite E. cbn [bind].
      assert (R' : Rel (mkGW (gw_w W) (gw_inits W ++ [Some id]) (gw_gens W ++ [Some (mkG (Some j) (Some (length (gw_inits W))) None)]) (gw_deps W) (gw_calls W) (gw_log W)) (anew A (mkA (Some j) id Unset))).
      { apply Rel_add; auto.
        - split; auto. split; [cbn; intros q Hq; injection Hq as <-; auto|]. split; [|split; [reflexivity|discriminate]].
          exists (length (gw_inits W)). split; auto. cbn. now rewrite nth_error_app2, Nat.sub_diag by lia.
        - intros m i0. apply il_app_old.
        - discriminate.
        - intros k'. cbn. split; [auto|]. intros [Z|Z]; [auto|discriminate].
        - cbn. intros k' Z. injection Z as <-. intros Z. apply il_lt in Z. lia.
        - intros k'. rewrite il_app. cbn. split; (intros [Z|Z]; [auto|right; congruence]). }
      rewrite <- Ed, Ln. rewrite <- Ed in *. exact (sim_update _ _ (length (a_gens A)) R').
    + unfold rd. now rewrite (proj2 (nth_error_None (a_deps A) j)).
  - (* EUpdate *) now apply sim_update.
  - (* EClone *) pose proof (rel_get W A i HR) as G. destruct (aget A i) as [a|]; [|rewrite G; reflexivity].
    destruct G as [o [Ag [Gg [An O]]]]. rewrite Gg. cbn [bind].
    destruct (ok_copy (gw_w W) (gw_inits W) _ o a (g_dep o) HI O) as (w' & g & E & Dg & Mg & I' & V' & Fr & N1 & A1). rewrite E. cbn [bind].
    eexists. split; [reflexivity|]. apply Rel_add; auto.
    + pose proof O as (D & J & (m & M & Q) & V & Em). split; [congruence|]. split; [exact J|]. split; [|auto].
      exists (length (gw_inits W)). split; auto. now rewrite nth_error_app2, Nat.sub_diag by lia.
    + intros m i0. apply il_app_old.
    + intros k' Z. rewrite Mg in Z. injection Z as <-. intros Z. apply il_lt in Z. lia.
    + intros k'. rewrite il_app, Mg. split; (intros [Z|Z]; [auto|right; congruence]).
  - (* EMove *) pose proof (rel_get W A i HR) as G. destruct (aget A i) as [a|]; [|rewrite G; reflexivity].
    destruct G as [o [Ag [Gg [An O]]]]. rewrite Gg. cbn [bind].
    destruct (ok_move (gw_w W) (gw_inits W) _ o a (g_dep o) HI O) as (w' & g & E & Dg & Mg & I' & V' & Vo & Fr & N1 & A1). rewrite E. cbn [bind].
    eexists. split; [reflexivity|]. pose proof O as (D & J & (m & M & Q) & V & Em). pose proof (at_lt _ _ _ Ag) as Hi.
    split; [exact I'|]. split; [auto|]. cbn [gw_deps gw_calls gw_log gw_gens gw_w gw_inits anew aset a_gens a_deps a_calls a_log].
    split; [rewrite !app_length, !length_set_nth; cbn; lia|]. split; [|split].
    + intros i' x y Hx Hy. apply nth_app_inv in Hx, Hy. rewrite !length_set_nth in *. destruct Hx as [[-> ->]|[L Hx]], Hy as [[L' ->]|[L' Hy]]; try lia.
      * split; [congruence|]. split; [exact J|]. split; [|auto]. exists (length (gw_inits W)). split; auto. now rewrite nth_error_app2, Nat.sub_diag by lia.
      * apply nth_set_inv in Hx, Hy. destruct Hx as [[-> ->]|[N Hx]], Hy as [[N' ->]|[N' Hy]]; try congruence.
        -- cbn. split; [reflexivity|]. split; [cbn; discriminate|]. split; [|split; [exact Vo|reflexivity]]. exists m. split; auto. cbn. now apply il_app_old.
        -- apply (ok1_frame (gw_w W) (gw_inits W) w' _ (length (a_deps A)) _ (gw_gens W) i' x y Hx (P i' x y Hx Hy)); auto.
           ++ intros g2 k' v' A2 K. apply Fr. apply (neq_own g_data _ _ i i' o g2 k' X1 Ag A2 N K).
           ++ intros g2 m' i0 _ _. apply il_app_old.
    + apply (Exact_app g_data (al (gw_w W))); auto. apply (Exact_set g_data _ _ i o _ _ X1 Ag); cbn; auto.
      intros k. split; [|intros [[Z _]|Z]; [auto|]].
      * intros Z. destruct (g_data o) as [k0|]; [|left; split; [auto|discriminate]]. destruct (Nat.eq_dec k k0); [right; congruence|left; split; congruence].
      * apply (proj2 X1). eauto.
    + apply (Exact_app g_init (il (gw_inits W))).
      * apply (Exact_set g_init _ _ i o _ _ X2 Ag); cbn; auto. intros k. rewrite M. split; [|intros [[Z _]|Z]; [auto|]].
        -- intros Z. destruct (Nat.eq_dec k m); [right; congruence|left; split; congruence].
        -- injection Z as <-. eexists; eauto.
      * intros k' Z. rewrite Mg in Z. injection Z as <-. intros Z. apply il_lt in Z. lia.
      * intros k'. rewrite il_app, Mg. split; (intros [Z|Z]; [auto|right; congruence]).
  - (* EAssign *) pose proof (rel_get W A i HR) as G. destruct (aget A i) as [b|]; [|rewrite G; reflexivity].
    destruct G as [g0 [Ag [Gg [An O]]]]. rewrite Gg. cbn [bind]. pose proof (rel_get W A k HR) as G. destruct (aget A k) as [a|]; [|rewrite G; reflexivity].
    destruct G as [o [Ago [Ggo [Ano Oo]]]]. rewrite Ggo. cbn [bind]. destruct (Nat.eqb_spec i k) as [->|Nik]; [eauto|].
    destruct (ok_clean (gw_w W) (gw_inits W) _ g0 b HI O) as (w1 & m0 & M0 & Q0 & E0 & I1 & L1 & Fr0 & Al0).
    pose proof (fun q => neq_own g_data (al (gw_w W)) (gw_gens W) i k g0 o q) as Nd. pose proof (fun q => neq_own g_init (il (gw_inits W)) (gw_gens W) i k g0 o q) as Ni.
    rewrite E0. cbn [bind]. pose proof Oo as (D & J & (m & M & Q) & V & Em).
    assert (Nm : m <> m0). { intros ->. apply (Ni m0 X2 Ag Ago (not_eq_sym Nik) M). exact M0. }
    assert (Oo' : ok w1 (set_nth m0 None (gw_inits W)) (length (a_deps A)) o a).
    { apply (ok_frame (gw_w W) (gw_inits W) _ _ (length (a_deps A)) _ o a Oo); [lia| |].
      - intros k' v' K. apply Fr0. apply (Nd k' X1 Ag Ago (not_eq_sym Nik) K).
      - intros m' i0 Hm' Hi0. rewrite nth_error_set_nth_neq; auto. congruence. }
    destruct (ok_copy w1 (set_nth m0 None (gw_inits W)) _ o a (g_dep o) I1 Oo') as (w' & g & E & Dg & Mg & I' & V' & Fr & N1 & A1). rewrite E. cbn [bind].
    rewrite length_set_nth in Mg. eexists. split; [reflexivity|]. pose proof (at_lt _ _ _ Ag) as Hi.
    split; [exact I'|]. cbn [gw_deps gw_calls gw_log gw_gens gw_w gw_inits anotify aset a_gens a_deps a_calls a_log].
    split; [split; [auto|split; congruence]|]. split; [now rewrite !length_set_nth|]. split; [|split].
    + intros i' x y Hx Hy. apply nth_set_inv in Hx, Hy. destruct Hx as [[-> ->]|[N Hx]], Hy as [[N' ->]|[N' Hy]]; try congruence.
      * split; [congruence|]. split; [exact J|]. split; [|auto]. exists (length (gw_inits W)). split; auto. rewrite nth_error_app2; rewrite length_set_nth; [|lia]. now rewrite Nat.sub_diag.
      * apply (ok1_frame (gw_w W) (gw_inits W) w' _ (length (a_deps A)) _ (gw_gens W) i' x y Hx (P i' x y Hx Hy)); auto.
        -- intros g2 k' v' A2 K Hk. apply Fr, Fr0; auto. apply (neq_own g_data _ _ i i' g0 g2 k' X1 Ag A2 N K).
        -- intros g2 m' i0 A2 Hm' Hi0. apply il_app_old. rewrite nth_error_set_nth_neq; auto. intros <-. apply (neq_own g_init _ _ i i' g0 g2 m0 X2 Ag A2 N Hm'). exact M0.
    + apply (Exact_set g_data _ _ i g0 (Some g) _ X1 Ag); cbn.
      * intros k' Hk'. destruct (opt_dec (g_data g0) (Some k')) as [Z|Z]; [auto|]. left. intros Al. apply (N1 k' Hk'). apply Al0. auto.
      * intros k'. rewrite A1, Al0. reflexivity.
    + apply (Exact_set g_init _ _ i g0 (Some g) _ X2 Ag); cbn.
      * intros k' Hk'. rewrite Mg in Hk'. injection Hk' as <-. left. intros Z. apply il_lt in Z. lia.
      * intros k'. rewrite il_app, il_set by (apply nth_error_lt in Q0; auto). rewrite length_set_nth, M0, Mg. split; (intros [Z|Z]; [left|right; congruence]); destruct Z as [Z Z']; split; congruence.
  - (* EMoveAssign *) pose proof (rel_get W A i HR) as G. destruct (aget A i) as [b|]; [|rewrite G; reflexivity].
    destruct G as [g0 [Ag [Gg [An O]]]]. rewrite Gg. cbn [bind]. pose proof (rel_get W A k HR) as G. destruct (aget A k) as [a|]; [|rewrite G; reflexivity].
    destruct G as [o [Ago [Ggo [Ano Oo]]]]. rewrite Ggo. cbn [bind]. destruct (Nat.eqb_spec i k) as [->|Nik]; [eauto|].
    destruct (ok_clean (gw_w W) (gw_inits W) _ g0 b HI O) as (w1 & m0 & M0 & Q0 & E0 & I1 & L1 & Fr0 & Al0).
    pose proof (fun q => neq_own g_data (al (gw_w W)) (gw_gens W) i k g0 o q) as Nd. pose proof (fun q => neq_own g_init (il (gw_inits W)) (gw_gens W) i k g0 o q) as Ni.
    rewrite E0. cbn [bind]. pose proof Oo as (D & J & (m & M & Q) & V & Em).
    assert (Nm : m <> m0). { intros ->. apply (Ni m0 X2 Ag Ago (not_eq_sym Nik) M). exact M0. }
    assert (Oo' : ok w1 (set_nth m0 None (gw_inits W)) (length (a_deps A)) o a).
    { apply (ok_frame (gw_w W) (gw_inits W) _ _ (length (a_deps A)) _ o a Oo); [lia| |].
      - intros k' v' K. apply Fr0. apply (Nd k' X1 Ag Ago (not_eq_sym Nik) K).
      - intros m' i0 Hm' Hi0. rewrite nth_error_set_nth_neq; auto. congruence. }
    destruct (ok_move w1 (set_nth m0 None (gw_inits W)) _ o a (g_dep o) I1 Oo') as (w' & g & E & Dg & Mg & I' & V' & Vo & Fr & N1 & A1). rewrite E. cbn [bind].
    rewrite length_set_nth in Mg. eexists. split; [reflexivity|]. pose proof (at_lt _ _ _ Ag) as Hi. pose proof (at_lt _ _ _ Ago) as Hk.
    split; [exact I'|]. cbn [gw_deps gw_calls gw_log gw_gens gw_w gw_inits anotify aset a_gens a_deps a_calls a_log].
    split; [split; [auto|split; congruence]|]. split; [now rewrite !length_set_nth|].
    assert (Y1 : Exact g_data (al w') (set_nth i (Some g) (gw_gens W))).
    { apply (Exact_set g_data _ _ i g0 (Some g) _ X1 Ag); cbn.
      - intros k' Hk'. destruct (opt_dec (g_data g0) (Some k')) as [Z|Z]; [auto|]. left. intros Al. apply (N1 k' Hk'). apply Al0. auto.
      - intros k'. rewrite A1, Al0. reflexivity. }
    assert (Y2 : Exact g_init (il (set_nth m0 None (gw_inits W) ++ [Some (a_init a)])) (set_nth i (Some g) (gw_gens W))).
    { apply (Exact_set g_init _ _ i g0 (Some g) _ X2 Ag); cbn.
      - intros k' Hk'. rewrite Mg in Hk'. injection Hk' as <-. left. intros Z. apply il_lt in Z. lia.
      - intros k'. rewrite il_app, il_set by (apply nth_error_lt in Q0; auto). rewrite length_set_nth, M0, Mg. split; (intros [Z|Z]; [left|right; congruence]); destruct Z as [Z Z']; split; congruence. }
    assert (Ago' : at_ (set_nth i (Some g) (gw_gens W)) k o) by (apply at_set; auto).
    split; [|split].
    + intros i' x y Hx Hy. apply nth_set_inv in Hx, Hy. destruct Hx as [[-> ->]|[N Hx]], Hy as [[N' ->]|[N' Hy]]; try congruence.
      * cbn. split; [reflexivity|]. split; [cbn; discriminate|]. split; [|split; [exact Vo|reflexivity]]. exists m. split; auto. cbn. apply il_app_old. rewrite nth_error_set_nth_neq; auto.
      * apply nth_set_inv in Hx, Hy. destruct Hx as [[-> ->]|[N2 Hx]], Hy as [[N2' ->]|[N2' Hy]]; try congruence.
        -- split; [congruence|]. split; [exact J|]. split; [|auto]. exists (length (gw_inits W)). split; auto. rewrite nth_error_app2; rewrite length_set_nth; [|lia]. now rewrite Nat.sub_diag.
        -- apply (ok1_frame (gw_w W) (gw_inits W) w' _ (length (a_deps A)) _ (gw_gens W) i' x y Hx (P i' x y Hx Hy)); auto.
           ++ intros g2 k' v' A2 K Hk0. apply Fr; [|apply Fr0; auto]; [apply (neq_own g_data _ _ k i' o g2 k' X1 Ago A2 N K)|apply (neq_own g_data _ _ i i' g0 g2 k' X1 Ag A2 N2 K)].
           ++ intros g2 m' i0 A2 Hm' Hi0. apply il_app_old. rewrite nth_error_set_nth_neq; auto. intros <-. apply (neq_own g_init _ _ i i' g0 g2 m0 X2 Ag A2 N2 Hm'). exact M0.
    + apply (Exact_set g_data _ _ k o _ _ Y1 Ago'); cbn; auto. intros k'. split; [|intros [[Z _]|Z]; [auto|]].
      * intros Z. destruct (g_data o) as [k0|]; [|left; split; [auto|discriminate]]. destruct (Nat.eq_dec k' k0); [right; congruence|left; split; congruence].
      * apply (proj2 Y1). eauto.
    + apply (Exact_set g_init _ _ k o _ _ Y2 Ago'); cbn; auto. intros k'. rewrite M. split; [|intros [[Z _]|Z]; [auto|]].
      * intros Z. destruct (Nat.eq_dec k' m); [right; congruence|left; split; congruence].
      * apply (proj2 Y2). exists k, o. split; congruence.
  - (* EDelete *) pose proof (rel_get W A i HR) as G. destruct (aget A i) as [a|]; [|rewrite G; reflexivity].
    destruct G as [g [Ag [Gg [An O]]]]. rewrite Gg. cbn [bind]. pose proof (at_lt _ _ _ Ag) as Hi.
    destruct (ok_clean (gw_w W) (gw_inits W) _ g a HI O) as (w1 & m0 & M0 & Q0 & E0 & I1 & L1 & Fr0 & Al0).
    destruct g as [gd gi gk]. cbn [g_dep g_init g_data] in *. rewrite E0. cbn [bind]. eexists. split; [reflexivity|].
    split; [exact I1|]. cbn [gw_deps gw_calls gw_log gw_gens gw_w gw_inits aset a_gens a_deps a_calls a_log]. split; [auto|]. split; [now rewrite !length_set_nth|]. split; [|split].
    + intros i' x y Hx Hy. apply nth_set_inv in Hx, Hy. destruct Hx as [[-> ->]|[N Hx]], Hy as [[N' ->]|[N' Hy]]; try congruence; [exact I|].
      apply (ok1_frame (gw_w W) (gw_inits W) w1 _ (length (a_deps A)) _ (gw_gens W) i' x y Hx (P i' x y Hx Hy)); auto.
      -- intros g2 k' v' A2 K Hk. apply Fr0; auto. apply (neq_own g_data _ _ i i' (mkG gd gi gk) g2 k' X1 Ag A2 N K).
      -- intros g2 m' i0 A2 Hm' Hi0. rewrite nth_error_set_nth_neq; auto. intros <-. apply (neq_own g_init _ _ i i' (mkG gd gi gk) g2 m0 X2 Ag A2 N Hm'). exact M0.
    + apply (Exact_set g_data _ _ i (mkG gd gi gk) None _ X1 Ag); cbn; [discriminate|]. intros k'. rewrite Al0. split; [auto|]. intros [Z|Z]; [auto|discriminate].
    + apply (Exact_set g_init _ _ i (mkG gd gi gk) None _ X2 Ag); cbn; [discriminate|]. intros k'. rewrite il_set by (apply nth_error_lt in Q0; auto). subst gi.
      split; [intros [Z N]; left; split; [auto|congruence]|]. intros [[Z N]|Z]; [split; [auto|congruence]|discriminate].
Qed.

Lemma sim_run es : forall W A, Rel W A ->
  match arun draw A es with
  | Some A' => exists W', grun zero junk draw W es = Ok W' /\ Rel W' A'
  | None => grun zero junk draw W es = UB
  end.
Proof.
  induction es as [|e es IH]; intros W A H; cbn [arun grun]; [eauto|].
  pose proof (sim_step W A e H) as S. destruct (astep draw A e) as [A1|].
  - destruct S as [W1 [-> R1]]. cbn [bind]. now apply IH.
  - now rewrite S.
Qed.

Lemma Rel_shows W A : Rel W A -> shows W A.
Proof.
  intros HR. pose proof HR as (HI & (Ed & Ec & El) & Ln & P & X1 & X2). split; auto. split; auto. split; auto.
  intros i. pose proof (rel_get W A i HR) as G. destruct (aget A i) as [a|]; [|exact G].
  destruct G as [g [Ag [Gg [An O]]]]. unfold good_status, gshape, geval. rewrite Gg. cbn [bind]. destruct O as (D & J & M & V & E).
  unfold okd in V. destruct (a_val a) as [|s d|]; cbn [a_good a_shape a_eval].
  - rewrite V. auto.
  - destruct V as (k & -> & t & p & At & B & S1 & S2). split; auto. rewrite (lookup_ok _ _ _ At). cbn [bind].
    split; [f_equal; rewrite (holdsb_shape _ _ _ _ B); auto|]. do 2 f_equal. now apply holdsb_expose with p.
  - destruct V as (k & -> & H). split; auto. rewrite (lookup_ok _ _ _ H). cbn [bind]. split; reflexivity.
Qed.

End P.
