(** Proofs about the observer graph. *)
From Coq Require Import Permutation.
From Verif Require Import Common ReactModel ReactSpec.

(** ---- heap ---- *)
Lemma get_put h x o y : get (put h x o) y = if (x =? y) && (x <? length h) then o else get h y.
Proof.
  unfold get, put. revert x y. induction h as [|a h IH]; intros [|x] [|y]; cbn; try rewrite andb_false_r; auto.
  rewrite IH. reflexivity.
Qed.
Lemma present_lt h x : ophase (get h x) <> Gone -> x < length h.
Proof. intros H. destruct (Nat.lt_ge_cases x (length h)) as [|G]; auto. unfold get in H. rewrite nth_overflow in H by auto. now contradiction H. Qed.
Lemma get_put_other h x o y : x <> y -> get (put h x o) y = get h y.
Proof. intros H. rewrite get_put. destruct (Nat.eqb_spec x y); [lia|reflexivity]. Qed.
Lemma get_put_same h x o : x < length h -> get (put h x o) x = o.
Proof. intros H. rewrite get_put, Nat.eqb_refl. apply Nat.ltb_lt in H. now rewrite H. Qed.

Lemma len_put h x o : length (put h x o) = length h.
Proof. apply length_set_nth. Qed.

Section Fields.
Context (h : heap) (x : nat).
Lemma kind_set_phase p y : okind (get (set_phase h x p) y) = okind (get h y).
Proof. unfold set_phase. rewrite get_put. destruct (Nat.eqb_spec x y) as [<-|]; cbn [andb]; auto. destruct (x <? length h); reflexivity. Qed.
Lemma deps_set_phase p y : odeps (get (set_phase h x p) y) = odeps (get h y).
Proof. unfold set_phase. rewrite get_put. destruct (Nat.eqb_spec x y) as [<-|]; cbn [andb]; auto. destruct (x <? length h); reflexivity. Qed.
Lemma aud_set_phase p y : oaud (get (set_phase h x p) y) = oaud (get h y).
Proof. unfold set_phase. rewrite get_put. destruct (Nat.eqb_spec x y) as [<-|]; cbn [andb]; auto. destruct (x <? length h); reflexivity. Qed.
Lemma kind_set_deps p y : okind (get (set_deps h x p) y) = okind (get h y).
Proof. unfold set_deps. rewrite get_put. destruct (Nat.eqb_spec x y) as [<-|]; cbn [andb]; auto. destruct (x <? length h); reflexivity. Qed.
Lemma phase_set_deps p y : ophase (get (set_deps h x p) y) = ophase (get h y).
Proof. unfold set_deps. rewrite get_put. destruct (Nat.eqb_spec x y) as [<-|]; cbn [andb]; auto. destruct (x <? length h); reflexivity. Qed.
Lemma aud_set_deps p y : oaud (get (set_deps h x p) y) = oaud (get h y).
Proof. unfold set_deps. rewrite get_put. destruct (Nat.eqb_spec x y) as [<-|]; cbn [andb]; auto. destruct (x <? length h); reflexivity. Qed.
Lemma kind_set_aud p y : okind (get (set_aud h x p) y) = okind (get h y).
Proof. unfold set_aud. rewrite get_put. destruct (Nat.eqb_spec x y) as [<-|]; cbn [andb]; auto. destruct (x <? length h); reflexivity. Qed.
Lemma phase_set_aud p y : ophase (get (set_aud h x p) y) = ophase (get h y).
Proof. unfold set_aud. rewrite get_put. destruct (Nat.eqb_spec x y) as [<-|]; cbn [andb]; auto. destruct (x <? length h); reflexivity. Qed.
Lemma deps_set_aud p y : odeps (get (set_aud h x p) y) = odeps (get h y).
Proof. unfold set_aud. rewrite get_put. destruct (Nat.eqb_spec x y) as [<-|]; cbn [andb]; auto. destruct (x <? length h); reflexivity. Qed.
Lemma phase_set_phase_other p y : x <> y -> ophase (get (set_phase h x p) y) = ophase (get h y).
Proof. intros. unfold set_phase. now rewrite get_put_other. Qed.
Lemma deps_set_deps_other p y : x <> y -> odeps (get (set_deps h x p) y) = odeps (get h y).
Proof. intros. unfold set_deps. now rewrite get_put_other. Qed.
Lemma aud_set_aud_other p y : x <> y -> oaud (get (set_aud h x p) y) = oaud (get h y).
Proof. intros. unfold set_aud. now rewrite get_put_other. Qed.
Lemma phase_set_phase_same p : x < length h -> ophase (get (set_phase h x p) x) = p.
Proof. intros. unfold set_phase. now rewrite get_put_same. Qed.
Lemma deps_set_deps_same p : x < length h -> odeps (get (set_deps h x p) x) = p.
Proof. intros. unfold set_deps. now rewrite get_put_same. Qed.
Lemma aud_set_aud_same p : x < length h -> oaud (get (set_aud h x p) x) = p.
Proof. intros. unfold set_aud. now rewrite get_put_same. Qed.
Lemma len_set_phase p : length (set_phase h x p) = length h. Proof. apply len_put. Qed.
Lemma len_set_deps p : length (set_deps h x p) = length h. Proof. apply len_put. Qed.
Lemma len_set_aud p : length (set_aud h x p) = length h. Proof. apply len_put. Qed.
End Fields.
Global Hint Rewrite kind_set_phase deps_set_phase aud_set_phase kind_set_deps phase_set_deps aud_set_deps kind_set_aud phase_set_aud deps_set_aud len_set_phase len_set_deps len_set_aud : heap.

Lemma pair_eqb_spec p q : reflect (p = q) (pair_eqb p q).
Proof.
  destruct p as [a b], q as [c d]. unfold pair_eqb. cbn. destruct (Nat.eqb_spec a c), (Nat.eqb_spec b d); cbn; constructor; congruence.
Qed.
Lemma memp_iff p l : memp p l = true <-> In p l.
Proof.
  unfold memp. rewrite existsb_exists. split.
  - intros [q [H1 H2]]. destruct (pair_eqb_spec p q); [now subst|discriminate].
  - intros H. exists p. split; auto. destruct (pair_eqb_spec p p); congruence.
Qed.

(** ---- pop_nulls ---- *)
Definition NT (d : list (option nat)) : Prop :=
  (forall i s, nth_error d i <> Some (Some s)) \/ (exists s, nth_error d (length d - 1) = Some (Some s)).

Lemma pop_nulls_nth d i s : nth_error (pop_nulls d) i = Some (Some s) <-> nth_error d i = Some (Some s).
Proof.
  revert i. induction d as [|x d IH]; intros i; cbn [pop_nulls]; [tauto|].
  destruct (pop_nulls d) as [|y r] eqn:E.
  - destruct x as [x|].
    + destruct i; cbn; [tauto|]. rewrite <- IH. destruct i; cbn; split; discriminate.
    + destruct i; cbn; [split; discriminate|]. rewrite <- IH. destruct i; cbn; split; discriminate.
  - destruct i; cbn [nth_error]; [tauto|apply IH].
Qed.
Lemma pop_nulls_len d : length (pop_nulls d) <= length d.
Proof. induction d as [|x d IH]; cbn; auto. destruct (pop_nulls d), x; cbn in *; lia. Qed.
Lemma pop_nulls_NT d : NT (pop_nulls d).
Proof.
  assert (G : pop_nulls d = [] \/ exists s, nth_error (pop_nulls d) (length (pop_nulls d) - 1) = Some (Some s)).
  { induction d as [|x d IH]; cbn [pop_nulls]; auto. destruct (pop_nulls d) as [|y r] eqn:E.
    - destruct x as [x|]; [right; exists x; reflexivity|left; reflexivity].
    - right. destruct IH as [IH|[s IH]]; [discriminate|]. exists s. cbn [length] in *. replace (S (S (length r)) - 1) with (S (S (length r) - 1)) by lia. exact IH. }
  destruct G as [G|G]; [left; rewrite G; intros [|i] s; discriminate|right; exact G].
Qed.
Lemma pop_nulls_nil d : (forall i s, nth_error d i <> Some (Some s)) -> pop_nulls d = [].
Proof.
  induction d as [|x d IH]; cbn; auto. intros H. rewrite IH by (intros i s; apply (H (S i) s)). destruct x as [x|]; auto. now contradiction (H 0 x).
Qed.

Lemma dep_lt h o i s : dep h o i s -> i < length (odeps (get h o)).
Proof. intros H. apply nth_error_Some. unfold dep in H. congruence. Qed.
Lemma dep_fun h o i s s' : dep h o i s -> dep h o i s' -> s = s'.
Proof. unfold dep. congruence. Qed.

(** ---- invariant ---- *)
Record Inv (h : heap) (P : nat -> nat -> Prop) : Prop := {
  i_mirror : forall o i s, ~ P o i -> (dep h o i s <-> link h s o i);
  i_nt : forall o, NT (odeps (get h o));
  i_obs : forall o i s, dep h o i s -> has_obs (okind (get h o)) = true /\ ophase (get h o) <> Gone;
  i_sub : forall s o i, link h s o i -> has_sub (okind (get h s)) = true /\ ophase (get h s) <> Gone;
  i_P : forall o i, P o i -> ophase (get h o) <> Gone /\ has_obs (okind (get h o)) = true /\ ~ (ophase (get h o) = Live /\ okind (get h o) = KGen);
  i_var : forall o, okind (get h o) = KVar -> length (odeps (get h o)) <= 1
}.

Record Rel (E R : nat -> Prop) (D : nat -> bool) (S P : nat -> nat -> Prop) (h h' : heap) : Prop := {
  r_len : length h' = length h;
  r_kind : forall o, okind (get h' o) = okind (get h o);
  r_DE : forall o, D o = true -> ~ E o;
  r_phase : forall o, ~ E o -> if D o then ophase (get h o) = Live /\ ophase (get h' o) = Gone else ophase (get h' o) = ophase (get h o);
  r_dep : forall o i s, ~ P o i -> (dep h' o i s <-> dep h o i s /\ ~ S o i /\ D o = false /\ D s = false);
  r_depP : forall o i s, P o i -> (dep h' o i s <-> dep h o i s);
  r_link : forall s o i, link h' s o i <-> link h s o i /\ ~ S o i /\ D o = false /\ D s = false;
  r_up : forall o i s, D o = false -> fragile (okind (get h o)) -> dep h o i s -> ~ P o i -> ~ S o i -> D s = false;
  r_ne : forall c o i, D c = false -> ~ E c -> ophase (get h c) = Live -> selfdel (okind (get h c)) -> link h c o i -> exists o' i', link h' c o' i';
  r_sound : forall c, D c = true -> dead h R c;
  r_decE : forall o, E o \/ ~ E o;
  r_decS : forall o i, S o i \/ ~ S o i
}.

Definition none : nat -> nat -> Prop := fun _ _ => False.
Definition nobodyp : nat -> Prop := fun _ => False.
Definition nodead : nat -> bool := fun _ => false.

Lemma Rel_refl (E R : nat -> Prop) P h : (forall o, E o \/ ~ E o) -> Rel E R nodead none P h h.
Proof. constructor; unfold nodead, none; try tauto; try discriminate; eauto. all: intros; intuition. Qed.

Lemma dead_transfer h0 h1 (R R2 : nat -> Prop) :
  (forall r, R2 r -> dead h0 R r) ->
  (forall o, okind (get h1 o) = okind (get h0 o)) ->
  (forall o i s, dep h1 o i s -> dep h0 o i s) ->
  (forall c o i, link h1 c o i -> link h0 c o i) ->
  (forall c, ophase (get h1 c) = Live -> ophase (get h0 c) = Live \/ dead h0 R c) ->
  (forall c o i, link h0 c o i -> link h1 c o i \/ dead h0 R o \/ dead h0 R c) ->
  forall c, dead h1 R2 c -> dead h0 R c.
Proof.
  intros HR Hk Hd Hl1 Hp Hl c H.
  assert (Dc : forall c, dead h1 R2 c -> dead h0 R c); [|now apply Dc].
  clear c H. fix IH 2. intros c H. destruct H as [x Hx|o i s Hf Hdep Hs|c o i Hs Hlive Hli Hall].
  - now apply HR.
  - apply (dead_up h0 R o i s); [now rewrite <- Hk|auto|now apply IH].
  - destruct (Hp c Hlive) as [Hlive0|]; [|assumption].
    (* is c dead for another reason? *)
    assert (Hall' : forall o' i', link h1 c o' i' -> dead h0 R o') by (intros o' i' L; exact (IH o' (Hall o' i' L))).
    clear Hall IH.
    rewrite Hk in Hs.
    (* classical-free: every observer of c in h0 is dead, or c is *)
    assert (G : forall l, (forall p, In p l -> link h0 c (fst p) (snd p)) -> dead h0 R c \/ forall p, In p l -> dead h0 R (fst p)).
    { induction l as [|p l IHl]; intros Hin; [right; intros p []|].
      destruct IHl as [|Hl']; [intros q Hq; apply Hin; now right|now left|].
      destruct (Hl c (fst p) (snd p)) as [L|[L|L]]; [apply Hin; now left| | |now left].
      - right. intros q [<-|Hq]; [now apply (Hall' _ (snd p))|auto].
      - right. intros q [<-|Hq]; auto. }
    destruct (G (oaud (get h0 c))) as [|G']; [intros [a b] Hin; exact Hin|assumption|].
    apply (dead_down h0 R c o i); auto. intros o' i' L. exact (G' (o', i') L).
Qed.

Lemma Rel_comp E R R2 D1 D2 S1 S2 (P : nat -> nat -> Prop) h0 h1 h2 : (forall o i, P o i \/ ~ P o i) ->
  Rel E R D1 S1 P h0 h1 -> Rel E R2 D2 S2 P h1 h2 ->
  (forall r, R2 r -> dead h0 R r) -> (forall e, E e -> dead h0 R e) ->
  (forall s o i, link h0 s o i -> S1 o i -> dead h0 R o \/ dead h0 R s) ->
  Rel E R (fun o => D1 o || D2 o) (fun o i => S1 o i \/ S2 o i) P h0 h2.
Proof.
  intros DP A B HR HE HS. constructor.
  - rewrite (r_len _ _ _ _ _ _ _ B). apply A.
  - intros o. rewrite (r_kind _ _ _ _ _ _ _ B). apply A.
  - intros o H. apply orb_true_iff in H. destruct H; [apply (r_DE _ _ _ _ _ _ _ A); auto|apply (r_DE _ _ _ _ _ _ _ B); auto].
  - intros o He. pose proof (r_phase _ _ _ _ _ _ _ A o He) as Pa. pose proof (r_phase _ _ _ _ _ _ _ B o He) as Pb.
    destruct (D1 o), (D2 o); cbn; intuition congruence.
  - intros o i s HP. rewrite (r_dep _ _ _ _ _ _ _ B) by auto. rewrite (r_dep _ _ _ _ _ _ _ A) by auto.
    rewrite !orb_false_iff. tauto.
  - intros o i s HP. rewrite (r_depP _ _ _ _ _ _ _ B) by auto. now apply A.
  - intros s o i. rewrite (r_link _ _ _ _ _ _ _ B), (r_link _ _ _ _ _ _ _ A), !orb_false_iff. tauto.
  - intros o i s Hd Hf Hdep HP Hs. apply orb_false_iff in Hd. destruct Hd as [Hd1 Hd2].
    assert (Ds1 : D1 s = false) by (eapply (r_up _ _ _ _ _ _ _ A); eauto; tauto).
    rewrite Ds1. cbn. eapply (r_up _ _ _ _ _ _ _ B); eauto; try tauto.
    + now rewrite (r_kind _ _ _ _ _ _ _ A).
    + apply (r_dep _ _ _ _ _ _ _ A); auto; tauto.
  - intros c o i Hd He Hl Hs L. apply orb_false_iff in Hd. destruct Hd as [Hd1 Hd2].
    pose proof (r_phase _ _ _ _ _ _ _ A c He) as Pa. rewrite Hd1 in Pa.
    destruct (r_ne _ _ _ _ _ _ _ A c o i Hd1 He Hl Hs L) as [o' [i' L']].
    apply (r_ne _ _ _ _ _ _ _ B c o' i'); auto; [congruence|now rewrite (r_kind _ _ _ _ _ _ _ A)].
  - intros c H. apply orb_true_iff in H. destruct H as [H|H]; [now apply A|].
    apply (dead_transfer h0 h1 R R2); [exact HR|apply (r_kind _ _ _ _ _ _ _ A)| | | | |now apply (r_sound _ _ _ _ _ _ _ B)].
    + intros o i s Hdep. destruct (DP o i) as [HP|HP].
      * now apply (r_depP _ _ _ _ _ _ _ A).
      * now apply (r_dep _ _ _ _ _ _ _ A) in Hdep.
    + intros c' o i L. now apply (r_link _ _ _ _ _ _ _ A) in L.
    + intros c' Hl. destruct (r_decE _ _ _ _ _ _ _ A c') as [He|He]; [right; now apply HE|].
      pose proof (r_phase _ _ _ _ _ _ _ A c' He) as Pa. destruct (D1 c'); [destruct Pa; congruence|]. left. congruence.
    + intros c' o i L. destruct (r_decS _ _ _ _ _ _ _ A o i) as [Hs|Hs]; [destruct (HS c' o i L Hs); auto|].
      destruct (D1 o) eqn:D1o; [right; left; now apply A|]. destruct (D1 c') eqn:D1c; [right; right; now apply A|].
      left. apply (r_link _ _ _ _ _ _ _ A). auto.
  - apply A.
  - intros o i. destruct (r_decS _ _ _ _ _ _ _ A o i), (r_decS _ _ _ _ _ _ _ B o i); tauto.
Qed.

(** ---- number of live objects ---- *)
Definition is_live (h : heap) (x : nat) : bool := match ophase (get h x) with Live => true | _ => false end.
Definition nlive (h : heap) : nat := length (filter (is_live h) (seq 0 (length h))).
Lemma is_live_iff h x : is_live h x = true <-> ophase (get h x) = Live.
Proof. unfold is_live. destruct (ophase (get h x)); split; congruence. Qed.
Lemma filter_le (f g : nat -> bool) l : (forall x, g x = true -> f x = true) -> length (filter g l) <= length (filter f l).
Proof.
  intros H. induction l as [|x l IH]; cbn; auto. destruct (g x) eqn:E; [rewrite (H x E); cbn; lia|]. destruct (f x); cbn; lia.
Qed.
Lemma filter_lt (f g : nat -> bool) l x : (forall x, g x = true -> f x = true) -> In x l -> f x = true -> g x = false -> length (filter g l) < length (filter f l).
Proof.
  intros H Hin Hf Hg. induction l as [|y l IH]; [destruct Hin|]. cbn. destruct Hin as [->|Hin].
  - rewrite Hf, Hg. cbn. pose proof (filter_le f g l H). lia.
  - specialize (IH Hin). destruct (g y) eqn:E; [rewrite (H y E); cbn; lia|]. destruct (f y); cbn; lia.
Qed.
Lemma nlive_le h h' : length h' = length h -> (forall x, ophase (get h' x) = Live -> ophase (get h x) = Live) -> nlive h' <= nlive h.
Proof. intros L H. unfold nlive. rewrite L. apply filter_le. intros x. rewrite !is_live_iff. apply H. Qed.
Lemma nlive_lt h h' x : length h' = length h -> (forall x, ophase (get h' x) = Live -> ophase (get h x) = Live) ->
  ophase (get h x) = Live -> ophase (get h' x) <> Live -> nlive h' < nlive h.
Proof.
  intros L H H1 H2. unfold nlive. rewrite L. apply (filter_lt _ _ _ x).
  - intros y. rewrite !is_live_iff. apply H.
  - apply in_seq. assert (x < length h) by (apply present_lt; congruence). lia.
  - now apply is_live_iff.
  - destruct (is_live h' x) eqn:E; auto. apply is_live_iff in E. contradiction.
Qed.
Lemma nlive_pos h x : ophase (get h x) = Live -> 0 < nlive h.
Proof.
  intros H. unfold nlive. destruct (filter _ _) as [|y l] eqn:E; cbn; [|lia].
  assert (In x (filter (is_live h) (seq 0 (length h)))); [|rewrite E in *; contradiction].
  apply filter_In. split; [apply in_seq; assert (x < length h) by (apply present_lt; congruence); lia|now apply is_live_iff].
Qed.

Definition UpCtx (h : heap) (P : nat -> nat -> Prop) : Prop :=
  (forall o i, ~ P o i) /\ (forall o, ophase (get h o) <> DyingObs) /\ (forall o i s, ophase (get h o) = DyingSub -> ~ dep h o i s).

Definition DelSpec (del : heap -> nat -> res heap) (n : nat) : Prop :=
  forall h x P, Inv h P -> (forall o i, P o i \/ ~ P o i) -> ophase (get h x) = Live -> (forall i, ~ P x i) -> nlive h <= n ->
    (forall o i, ~ link h x o i) \/ UpCtx h P ->
    exists h' D, del h x = Ok h' /\ Inv h' P /\ D x = true /\ Rel nobodyp (eq x) D none P h h' /\
      ((forall o i, ~ link h x o i) -> (forall c o i, D c = true -> link h c o i -> D o = true) /\
        (forall c, D c = true -> c = x \/ selfdel (okind (get h c)))).

Lemma access_ok h x : ophase (get h x) <> Gone -> access h x = Ok (get h x).
Proof. unfold access. destruct (ophase (get h x)); congruence. Qed.

Lemma selfdel_noparent del h s : 
  (ophase (get h s) = Live /\ selfdel (okind (get h s)) /\ (oaud (get h s) = [] -> death_on_noparent del h s = del h s)) \/
  (~ (ophase (get h s) = Live /\ selfdel (okind (get h s))) /\ death_on_noparent del h s = Ok h).
Proof.
  unfold death_on_noparent, selfdel. destruct (ophase (get h s)), (okind (get h s)) as [|[]| | |];
    try (right; split; [intuition congruence|reflexivity]).
  - left. split; auto. split; auto. now intros ->.
  - left. split; auto.
Qed.

(** the severed link: (v, idx) no longer in the audience of s *)
Lemma link_cut h s v idx a b c : s < length h ->
  (link (set_aud h s (filter (fun q => negb (pair_eqb (v, idx) q)) (oaud (get h s)))) a b c <-> link h a b c /\ ~ (a = s /\ b = v /\ c = idx)).
Proof.
  intros Hs. unfold link. destruct (Nat.eq_dec a s) as [->|Hn].
  - rewrite aud_set_aud_same by auto. rewrite filter_In. destruct (pair_eqb_spec (v, idx) (b, c)) as [E|E]; cbn [negb].
    + inversion E; subst. split; [intros [_ H]; discriminate|intros [_ H]; exfalso; auto].
    + split; intros [H1 H2]; split; auto. intros [_ [-> ->]]. congruence.
  - rewrite aud_set_aud_other by congruence. tauto.
Qed.
Lemma dep_set_aud h s a o i t : dep (set_aud h s a) o i t <-> dep h o i t.
Proof. unfold dep. now rewrite deps_set_aud. Qed.
Lemma link_set_deps h x d s o i : link (set_deps h x d) s o i <-> link h s o i.
Proof. unfold link. now rewrite aud_set_deps. Qed.
Lemma dep_set_phase h x p o i t : dep (set_phase h x p) o i t <-> dep h o i t.
Proof. unfold dep. now rewrite deps_set_phase. Qed.
Lemma link_set_phase h x p s o i : link (set_phase h x p) s o i <-> link h s o i.
Proof. unfold link. now rewrite aud_set_phase. Qed.

Definition plus (P : nat -> nat -> Prop) (o k : nat) : nat -> nat -> Prop := fun o' i' => P o' i' \/ (o' = o /\ i' = k).

(** detach, and what follows from it *)
Lemma detach_ok del n h P o k s :
  DelSpec del n -> nlive h <= n -> Inv h P -> (forall o i, P o i \/ ~ P o i) ->
  link h s o k ->
  ophase (get h o) <> Gone -> has_obs (okind (get h o)) = true -> ~ (ophase (get h o) = Live /\ okind (get h o) = KGen) ->
  exists h' D, detach del h s o k = Ok h' /\ Inv h' (plus P o k) /\
    Rel nobodyp (fun x => x = s /\ D x = true) D none (plus P o k) (set_aud h s (filter (fun q => negb (pair_eqb (o, k) q)) (oaud (get h s)))) h' /\
    ((forall c, D c = false) \/ (D s = true /\ ophase (get h s) = Live /\ selfdel (okind (get h s)) /\ forall o' i', link h s o' i' -> o' = o /\ i' = k)) /\
    (ophase (get h s) = Live -> selfdel (okind (get h s)) -> (forall o' i', link h s o' i' -> o' = o /\ i' = k) -> D s = true) /\
    (forall c o' i', D c = true -> link h c o' i' -> D o' = true \/ (c = s /\ o' = o /\ i' = k)) /\
    (forall c, D c = true -> selfdel (okind (get h c))).
Proof.
  intros HD Hn I DP L Po Oo Go. destruct (i_sub h P I s o k L) as [Hsub Hpres]. pose proof (present_lt h s Hpres) as Hlt.
  unfold detach. rewrite access_ok by auto. cbn [bind].
  set (a := filter _ _). set (ha := set_aud h s a).
  assert (Lc : forall x y z, link ha x y z <-> link h x y z /\ ~ (x = s /\ y = o /\ z = k)) by (intros; now apply link_cut).
  assert (Ia : Inv ha (plus P o k)).
  { constructor.
    - intros o' i' s' HP. unfold ha at 1. rewrite dep_set_aud, Lc. unfold plus in HP. rewrite (i_mirror h P I) by tauto. intuition.
    - intros x. unfold ha. rewrite deps_set_aud. apply I.
    - intros x i t. unfold ha. rewrite dep_set_aud, kind_set_aud, phase_set_aud. apply I.
    - intros x y z H. unfold ha. rewrite kind_set_aud, phase_set_aud. apply Lc in H. apply (i_sub h P I x y z). tauto.
    - intros x i H. unfold ha. rewrite kind_set_aud, phase_set_aud. destruct H as [H|[-> ->]]; [now apply (i_P h P I x i)|auto].
    - intros x. unfold ha. rewrite kind_set_aud, deps_set_aud. apply I. }
  assert (DP' : forall o' i', plus P o k o' i' \/ ~ plus P o k o' i').
  { intros o' i'. unfold plus. destruct (DP o' i'); auto. destruct (Nat.eq_dec o' o), (Nat.eq_dec i' k); tauto. }
  assert (Aud : oaud (get ha s) = a) by (unfold ha; now rewrite aud_set_aud_same).
  assert (Empty : a = [] <-> forall o' i', link h s o' i' -> o' = o /\ i' = k).
  { split.
    - intros Ea o' i' L'. assert (G : ~ link ha s o' i') by (unfold link; rewrite Aud, Ea; auto). rewrite Lc in G.
      destruct (Nat.eq_dec o' o), (Nat.eq_dec i' k); auto; exfalso; apply G; split; auto; tauto.
    - intros H. destruct a as [|[b c] a'] eqn:Ea; auto. exfalso.
      assert (G : link ha s b c) by (unfold link; rewrite Aud; now left). apply Lc in G. destruct G as [G1 G2]. apply G2. destruct (H b c G1); auto. }
  assert (Same : exists h' D, Ok ha = Ok h' /\ Inv h' (plus P o k) /\ Rel nobodyp (fun x => x = s /\ D x = true) D none (plus P o k) ha h' /\ (forall c, D c = false)).
  { exists ha, nodead. split; auto. split; auto. split; [apply Rel_refl; intros; right; intros []|reflexivity]. }
  destruct (selfdel_noparent del ha s) as [[E1 [E2 E3]]|[E1 E2]].
  - unfold ha in E1, E2. rewrite phase_set_aud in E1. rewrite kind_set_aud in E2.
    destruct a as [|p a'] eqn:Ea.
    + rewrite E3 by auto. destruct (HD ha s (plus P o k)) as [h' [D [F1 [F2 [F3 [F4 F5]]]]]]; auto.
      * unfold ha. now rewrite phase_set_aud.
      * intros i H. destruct (i_P _ _ Ia s i H) as [_ [G1 G2]]. unfold ha in G1, G2. rewrite kind_set_aud in G1, G2. rewrite phase_set_aud in G2.
        destruct E2 as [E2|E2]; [rewrite E2 in G1; discriminate|tauto].
      * etransitivity; [|exact Hn]. apply nlive_le; [apply len_set_aud|intros x; unfold ha; now rewrite phase_set_aud].
      * left. intros o' i' H. apply Lc in H. destruct H as [H1 H2]. destruct (proj1 Empty eq_refl o' i' H1). auto.
      * exists h', D. split; auto. split; auto. split.
        { assert (HR : forall c, dead ha (eq s) c -> dead ha (fun x => x = s /\ D x = true) c).
          { apply dead_transfer; auto. intros r <-. apply dead_root. auto. }
          destruct F4. constructor; auto. }
        split; [right; split; auto; split; auto; split; auto; now apply Empty|]. split; [auto|].
        destruct F5 as [F5 F6].
        { intros o' i' H. apply Lc in H. destruct H as [H1 H2]. destruct (proj1 Empty eq_refl o' i' H1). auto. }
        split.
        { intros c o' i' Dc L'. destruct (Nat.eq_dec c s) as [->|Hcs]; [right; destruct (proj1 Empty eq_refl o' i' L'); auto|].
          left. apply (F5 c o' i' Dc). apply Lc. split; auto. tauto. }
        { intros c Dc. destruct (F6 c Dc) as [->|G]; auto. unfold ha in G. now rewrite kind_set_aud in G. }
    + destruct Same as [h' [D [F1 [F2 [F3 F4]]]]]. exists h', D. split; auto. split; auto. split; auto. split; auto.
      split; [intros _ _ H; apply Empty in H; discriminate|]. split; [intros c o' i' Dc|intros c Dc]; rewrite F4 in Dc; discriminate.
  - destruct Same as [h' [D [F1 [F2 [F3 F4]]]]]. exists h', D. split; [destruct a; auto; now rewrite E2|]. split; auto. split; auto. split; auto.
    split; [intros G1 G2 _; exfalso; apply E1; unfold ha; now rewrite phase_set_aud, kind_set_aud|]. split; [intros c o' i' Dc|intros c Dc]; rewrite F4 in Dc; discriminate.
Qed.

(** one removed dependency *)
Definition at_ (o k : nat) : nat -> nat -> Prop := fun o' i' => o' = o /\ i' = k.

Lemma dep_after_remove h o k d o' i s : o < length h -> d = odeps (get h o) ->
  (dep (set_deps h o (pop_nulls (set_nth k None d))) o' i s <-> dep h o' i s /\ ~ at_ o k o' i).
Proof.
  intros Ho ->. unfold dep, at_. destruct (Nat.eq_dec o' o) as [->|Hne].
  - rewrite deps_set_deps_same by auto. rewrite pop_nulls_nth, nth_error_set_nth.
    destruct (Nat.eqb_spec k i) as [->|]; cbn [andb].
    + destruct (Nat.ltb_spec i (length (odeps (get h o)))).
      * split; [discriminate|tauto].
      * split; [|tauto]. intros H'. assert (i < length (odeps (get h o))) by (apply nth_error_Some; congruence). lia.
    + split; [intros H; split; auto; lia|tauto].
  - rewrite deps_set_deps_other by auto. tauto.
Qed.

Lemma rem_step del n h (E : nat -> Prop) P o k s :
  DelSpec del n -> nlive h <= n -> Inv h P -> (forall o i, P o i \/ ~ P o i) -> (forall i, ~ P o i) ->
  (forall e, E e -> e = o) -> (forall e, E e \/ ~ E e) ->
  dep h o k s -> ~ (ophase (get h o) = Live /\ okind (get h o) = KGen) ->
  exists h' D, remove_dependency del h o k = Ok h' /\ Inv h' P /\ D o = false /\ Rel E (eq o) D (at_ o k) P h h' /\
    (forall c o' i', D c = true -> link h c o' i' -> D o' = true \/ o' = o) /\ (forall c, D c = true -> selfdel (okind (get h c))).
Proof.
  intros HD Hn I DP Po HE DE Hd Go. destruct (i_obs h P I o k s Hd) as [Ho Hpo].
  assert (Lk : link h s o k) by (apply (i_mirror h P I); auto).
  assert (Lu : forall s', link h s' o k -> s' = s).
  { intros s' L'. apply (i_mirror h P I) in L'; auto. eapply dep_fun; eauto. }
  destruct (detach_ok del n h P o k s) as [hb [D [E1 [Ib [Rb [Ds [Dn [Du Dsd]]]]]]]]; auto.
  unfold remove_dependency. rewrite access_ok by auto. cbn [bind]. unfold dep in Hd. rewrite Hd. fold (dep h o k s) in Hd.
  rewrite E1. cbn [bind].
  assert (Pk : plus P o k o k) by (right; auto).
  destruct (i_P _ _ Ib o k Pk) as [Hpo' _]. rewrite access_ok by auto. cbn [bind].
  assert (Hd' : dep hb o k s) by (apply (r_depP _ _ _ _ _ _ _ Rb); auto; now apply dep_set_aud).
  rewrite wr_ok by (eapply dep_lt; eauto). cbn [bind].
  set (ha := set_aud h s _) in *. assert (Hlt : s < length h) by (apply present_lt; eapply (i_sub h P I); eauto).
  assert (La : forall x y z, link ha x y z <-> link h x y z /\ ~ (x = s /\ y = o /\ z = k)) by (intros; now apply link_cut).
  pose proof (present_lt hb o Hpo') as Hlo.
  set (hc := set_deps hb o _).
  assert (Dc : forall o' i s', dep hc o' i s' <-> dep hb o' i s' /\ ~ at_ o k o' i) by (intros; now apply dep_after_remove).
  assert (Lc : forall x y z, link hc x y z <-> link hb x y z) by (intros; apply link_set_deps).
  assert (Do : D o = false).
  { destruct (D o) eqn:DD; auto. pose proof (r_phase _ _ _ _ _ _ _ Rb o (fun f => f)) as G. rewrite DD in G. tauto. }
  exists hc, D. split; auto. split; [|split; auto; split].
  - constructor.
    + intros o' i s' HP. rewrite Dc, Lc. destruct (Nat.eq_dec o' o) as [->|Hne].
      * destruct (Nat.eq_dec i k) as [->|Hik].
        -- split; [unfold at_; tauto|]. intros G. exfalso. apply (r_link _ _ _ _ _ _ _ Rb) in G. destruct G as [G _]. apply La in G. destruct G as [G1 G2].
           pose proof (Lu s' G1). subst. auto.
        -- rewrite (i_mirror _ _ Ib); [unfold at_; intuition lia|]. unfold plus. intros [G|[_ G]]; [now apply (Po i)|lia].
      * rewrite (i_mirror _ _ Ib); [unfold at_; intuition lia|]. unfold plus. tauto.
    + intros x. unfold hc. destruct (Nat.eq_dec x o) as [->|Hne]; [rewrite deps_set_deps_same by auto; apply pop_nulls_NT|].
      rewrite deps_set_deps_other by auto. apply Ib.
    + intros x i t G. unfold hc. rewrite kind_set_deps, phase_set_deps. apply Dc in G. eapply (i_obs _ _ Ib). apply G.
    + intros x y z G. unfold hc. rewrite kind_set_deps, phase_set_deps. apply Lc in G. eapply (i_sub _ _ Ib). apply G.
    + intros x i G. unfold hc. rewrite kind_set_deps, phase_set_deps. apply (i_P _ _ Ib x i). now left.
    + intros x G. unfold hc in *. rewrite kind_set_deps in G. destruct (Nat.eq_dec x o) as [->|Hne].
      * rewrite deps_set_deps_same by auto. pose proof (pop_nulls_len (set_nth k None (odeps (get hb o)))) as G2. rewrite length_set_nth in G2.
        pose proof (i_var _ _ Ib o G). lia.
      * rewrite deps_set_deps_other by auto. now apply Ib.
  - constructor.
    + unfold hc. rewrite len_set_deps, (r_len _ _ _ _ _ _ _ Rb). apply len_set_aud.
    + intros x. unfold hc. rewrite kind_set_deps, (r_kind _ _ _ _ _ _ _ Rb). apply kind_set_aud.
    + intros x Dx Ex. apply HE in Ex. congruence.
    + intros x _. unfold hc. rewrite phase_set_deps. pose proof (r_phase _ _ _ _ _ _ _ Rb x (fun f => f)) as G.
      replace (ophase (get h x)) with (ophase (get ha x)) by apply phase_set_aud. exact G.
    + intros x i t HP. rewrite Dc. destruct (Nat.eq_dec x o) as [->|Hne].
      * destruct (Nat.eq_dec i k) as [->|Hik]; [unfold at_; tauto|].
        rewrite (r_dep _ _ _ _ _ _ _ Rb); [|unfold plus; intros [G|[_ G]]; [now apply (Po i)|lia]].
        unfold ha. rewrite dep_set_aud. unfold none, at_. intuition lia.
      * rewrite (r_dep _ _ _ _ _ _ _ Rb); [|unfold plus; tauto]. unfold ha. rewrite dep_set_aud. unfold none, at_. intuition lia.
    + intros x i t HP. rewrite Dc. destruct (Nat.eq_dec x o) as [->|Hne]; [now contradiction (Po i)|].
      rewrite (r_depP _ _ _ _ _ _ _ Rb); [|now left]. unfold ha. rewrite dep_set_aud. unfold at_. intuition lia.
    + intros t x i. rewrite Lc, (r_link _ _ _ _ _ _ _ Rb), La. unfold none, at_. split.
      * intros [[G1 G2] [_ G3]]. split; auto. split; auto. intros [-> ->]. apply G2. rewrite (Lu t G1). auto.
      * intros [G1 [G2 G3]]. split; [split; auto; tauto|]. split; auto.
    + intros x i t Dx Fx Hdep HP Hat. eapply (r_up _ _ _ _ _ _ _ Rb x i t); auto.
      * unfold ha. now rewrite kind_set_aud.
      * unfold ha. now rewrite dep_set_aud.
      * unfold plus. unfold at_ in Hat. tauto.
    + intros c x i Dcf _ Hl Hs L. destruct (oaud (get ha c)) as [|[y z] l] eqn:Ea.
      * assert (G : c = s).
        { destruct (Nat.eq_dec c s); auto. exfalso. assert (G : link ha c x i) by (apply La; split; auto; tauto). unfold link in G. now rewrite Ea in G. }
        subst c. rewrite Dn in Dcf; auto; [discriminate|]. intros o' i' L'.
        destruct (Nat.eq_dec o' o), (Nat.eq_dec i' k); auto; exfalso;
        (assert (G : link ha s o' i') by (apply La; split; auto; tauto)); unfold link in G; now rewrite Ea in G.
      * destruct (r_ne _ _ _ _ _ _ _ Rb c y z) as [o' [i' G]];
          [exact Dcf|intros []|unfold ha; now rewrite phase_set_aud|unfold ha; now rewrite kind_set_aud|unfold link; rewrite Ea; now left|].
        exists o', i'. now apply Lc.
    + intros c Dct. destruct Ds as [Ds|[D1 [D2 [D3 D4]]]]; [rewrite Ds in Dct; discriminate|].
      assert (Dead : dead h (eq o) s).
      { apply (dead_down h (eq o) s o k); auto. intros o' i' L'. destruct (D4 o' i' L') as [-> _]. now apply dead_root. }
      apply (dead_transfer h ha (eq o) (fun x => x = s /\ D x = true)).
      * intros r [-> _]. exact Dead.
      * intros x. unfold ha. apply kind_set_aud.
      * intros x i t. unfold ha. now rewrite dep_set_aud.
      * intros x y z G. apply La in G. tauto.
      * intros x. unfold ha. rewrite phase_set_aud. auto.
      * intros x y z G. rewrite La. destruct (Nat.eq_dec x s) as [->|]; [right; right; exact Dead|left; split; auto; tauto].
      * now apply (r_sound _ _ _ _ _ _ _ Rb).
    + exact DE.
    + intros x i. unfold at_. destruct (Nat.eq_dec x o), (Nat.eq_dec i k); tauto.
  - split; [|exact Dsd]. intros c o' i' G1 G2. destruct (Du c o' i' G1 G2) as [G|[_ [G _]]]; auto.
Qed.

Lemma Rel_S_ext E R D S S' P h h' : Rel E R D S P h h' -> (forall o i, S' o i \/ ~ S' o i) ->
  (forall o i s, dep h o i s -> ~ P o i -> (S o i <-> S' o i)) ->
  (forall s o i, link h s o i -> (S o i <-> S' o i)) -> Rel E R D S' P h h'.
Proof.
  intros A DS H1 H2. constructor; try apply A; auto.
  - intros o i s HP. rewrite (r_dep _ _ _ _ _ _ _ A) by auto. split; intros [G1 [G2 G3]]; split; auto; split; auto; now rewrite (H1 o i s) in * by auto.
  - intros s o i. rewrite (r_link _ _ _ _ _ _ _ A). split; intros [G1 [G2 G3]]; split; auto; split; auto; now rewrite (H2 s o i) in * by auto.
  - intros o i s G1 G2 G3 G4 G5. eapply (r_up _ _ _ _ _ _ _ A); eauto. now rewrite (H1 o i s) by auto.
Qed.

Lemma Rel_nlive E R D S P h h' : Rel E R D S P h h' -> (forall e, E e -> ophase (get h' e) <> Live) -> nlive h' <= nlive h.
Proof.
  intros A HE. apply nlive_le; [apply A|]. intros x Hx. destruct (r_decE _ _ _ _ _ _ _ A x) as [He|He]; [now apply HE in He|].
  pose proof (r_phase _ _ _ _ _ _ _ A x He) as G. destruct (D x); [destruct G; congruence|congruence].
Qed.

Lemma dtor_ok del n h P x :
  DelSpec del n -> nlive h <= n -> Inv h P -> (forall o i, P o i \/ ~ P o i) -> (forall i, ~ P x i) ->
  ophase (get h x) = DyingObs ->
  exists h' D, observer_dtor del h x = Ok h' /\ Inv h' P /\ D x = false /\
    Rel nobodyp (eq x) D (fun o _ => o = x) P h h' /\ (forall i s, ~ dep h' x i s) /\
    (forall c o i, D c = true -> link h c o i -> D o = true \/ o = x) /\ (forall c, D c = true -> selfdel (okind (get h c))).
Proof.
  intros HD Hn I DP Px Phx. set (nd := length (odeps (get h x))).
  assert (Loop : exists h', for_ nd (fun i h => remove_dependency del h x i) h = Ok h' /\
    exists D, Inv h' P /\ D x = false /\ Rel nobodyp (eq x) D (fun o i => o = x /\ i < nd) P h h' /\ (forall c o i, D c = true -> link h c o i -> D o = true \/ o = x) /\ (forall c, D c = true -> selfdel (okind (get h c))) /\
      (nd = 0 -> h' = h) /\ ((forall i s, ~ dep h x i s) -> h' = h)).
  { apply (for_inv (fun k h' => exists D, Inv h' P /\ D x = false /\ Rel nobodyp (eq x) D (fun o i => o = x /\ i < k) P h h' /\ (forall c o i, D c = true -> link h c o i -> D o = true \/ o = x) /\ (forall c, D c = true -> selfdel (okind (get h c))) /\
      (k = 0 -> h' = h) /\ ((forall i s, ~ dep h x i s) -> h' = h))).
    - exists nodead. split; auto. split; auto. split; [|split; [discriminate|split; [discriminate|auto]]]. apply (Rel_S_ext _ _ _ none); [apply Rel_refl; intros; right; intros []|intros; right; lia| |]; intros; unfold none; split; [tauto|lia|tauto|lia].
    - intros k hk Hk [D [Ik [Dx [Rk [Uk [Vk [K0 Kn]]]]]]].
      assert (Phk : ophase (get hk x) = DyingObs).
      { pose proof (r_phase _ _ _ _ _ _ _ Rk x (fun f => f)) as G. rewrite Dx in G. congruence. }
      assert (Keep : forall i s, dep h x i s -> k <= i -> dep hk x i s).
      { intros i s Hd Hi. destruct (i_obs h P I x i s Hd) as [Ho _].
        assert (Fr : fragile (okind (get h x)) \/ okind (get h x) = KVar) by (unfold fragile; destruct (okind (get h x)); try discriminate; auto).
        destruct Fr as [Fr|Fr].
        - apply (r_dep _ _ _ _ _ _ _ Rk); auto. split; auto. split; [lia|]. split; auto.
          eapply (r_up _ _ _ _ _ _ _ Rk x i s); auto; lia.
        - pose proof (i_var h P I x Fr) as Lv. pose proof (dep_lt h x i s Hd) as Li. assert (k = 0) by lia. now rewrite K0. }
      assert (DS : forall j o i, o = x /\ i < j \/ ~ (o = x /\ i < j)).
      { intros j o i. destruct (Nat.eq_dec o x), (Nat.lt_ge_cases i j); try tauto; right; lia. }
      assert (Hent : exists e, nth_error (odeps (get hk x)) k = Some e).
      { destruct (nth_error (odeps (get hk x)) k) eqn:En; [eauto|]. exfalso. apply nth_error_None in En.
        destruct (i_nt h P I x) as [Nn|[s Ns]].
        - rewrite (Kn Nn) in En. unfold nd in Hk. lia.
        - assert (G : dep hk x (nd - 1) s) by (apply Keep; [exact Ns|lia]). apply dep_lt in G. lia. }
      destruct Hent as [[s|] En].
      + assert (Go : ~ (ophase (get hk x) = Live /\ okind (get hk x) = KGen)) by (intros [G _]; congruence).
        destruct (rem_step del n hk nobodyp P x k s) as [h2 [D2 [F1 [F2 [F3 [F4 [F5 F6]]]]]]]; auto.
        * etransitivity; [eapply Rel_nlive; [exact Rk|intros e []]|exact Hn].
        * intros e [].
        * exists h2. split; [exact F1|]. exists (fun o => D o || D2 o). split; auto. split; [now rewrite Dx, F3|]. split; [|split].
          -- eapply Rel_S_ext; [eapply Rel_comp; [exact DP|exact Rk|exact F4| | |]|apply (DS (S k))| |].
             ++ intros r <-. now apply dead_root.
             ++ intros e [].
             ++ intros s' o i _ [-> _]. left. now apply dead_root.
             ++ intros o i s' _ _. unfold at_. intuition lia.
             ++ intros s' o i _. unfold at_. intuition lia.
          -- intros c o i Hc L. apply orb_true_iff in Hc. destruct Hc as [Hc|Hc]; [destruct (Uk c o i Hc L) as [->|]; auto|].
             destruct (D o) eqn:Do; auto. destruct (D c) eqn:Dc; [destruct (Uk c o i Dc L); [congruence|auto]|].
             destruct (Nat.eq_dec o x); auto. apply (F5 c o i Hc). apply (r_link _ _ _ _ _ _ _ Rk). split; auto. split; auto. lia.
          -- split; [|split; [discriminate|]].
             { intros c Hc. apply orb_true_iff in Hc. destruct Hc as [Hc|Hc]; [auto|]. rewrite <- (r_kind _ _ _ _ _ _ _ Rk). auto. }
             intros Nn. exfalso. rewrite (Kn Nn) in En. now apply (Nn k s).
      + exists hk. split; [unfold remove_dependency; rewrite access_ok by congruence; cbn [bind]; now rewrite En|].
        assert (Nk : forall s, ~ dep h x k s).
        { intros s G. apply Keep in G; [|lia]. unfold dep in G. congruence. }
        exists D. split; auto. split; auto. split; [|split; [exact Uk|split; [exact Vk|split; [discriminate|auto]]]].
        apply (Rel_S_ext _ _ _ _ _ _ _ _ Rk); [apply DS| |].
        * intros o i s' G _. split; [lia|]. intros [-> G2]. split; auto. destruct (Nat.eq_dec i k) as [->|]; [now apply Nk in G|lia].
        * intros s' o i G. split; [lia|]. intros [-> G2]. split; auto. destruct (Nat.eq_dec i k) as [->|]; [|lia].
          apply (i_mirror h P I) in G; auto. now apply Nk in G. }
  destruct Loop as [h' [E1 [D [Ih [Dx [Rh [Uh [Vh _]]]]]]]]. exists h', D. unfold observer_dtor. fold nd. rewrite E1. split; auto. split; auto. split; auto.
  assert (Rx : Rel nobodyp (eq x) D (fun o _ => o = x) P h h').
  { apply (Rel_S_ext _ _ _ _ _ _ _ _ Rh); [intros o _; destruct (Nat.eq_dec o x); auto| |].
    - intros o i s G _. split; [tauto|]. intros ->. split; auto. now apply dep_lt in G.
    - intros s o i G. split; [tauto|]. intros ->. split; auto. apply (i_mirror h P I) in G; auto. now apply dep_lt in G. }
  split; auto. split; [|split; auto]. intros i s G. apply (r_dep _ _ _ _ _ _ _ Rx) in G; auto. tauto.
Qed.

Lemma Rel_weaken R D S P h h' x : Rel nobodyp R D S P h h' -> D x = false -> Rel (eq x) R D S P h h'.
Proof.
  intros A Dx. constructor; try apply A.
  - intros o Do <-. congruence.
  - intros o _. apply A. intros [].
  - intros c o i Dc _. apply A; auto.
  - intros o. destruct (Nat.eq_dec x o); auto.
Qed.

Lemma Rel_set_phase R P h x p : Rel (eq x) R nodead none P h (set_phase h x p).
Proof.
  constructor; unfold nodead, none.
  - apply len_set_phase.
  - intros; apply kind_set_phase.
  - discriminate.
  - intros o Ho. now apply phase_set_phase_other.
  - intros. rewrite dep_set_phase. intuition.
  - intros. apply dep_set_phase.
  - intros. rewrite link_set_phase. intuition.
  - auto.
  - intros c o i _ _ _ _ L. exists o, i. now apply link_set_phase.
  - discriminate.
  - intros o. destruct (Nat.eq_dec x o); auto.
  - auto.
Qed.

(** removing a dependency on a subject that is being destroyed *)
Lemma rem_simple del h P o k s R : Inv h P -> (forall i, ~ P o i) -> dep h o k s -> ophase (get h s) <> Live ->
  exists h', remove_dependency del h o k = Ok h' /\ Inv h' P /\ Rel (eq s) R nodead (at_ o k) P h h' /\ (forall y, ophase (get h' y) = ophase (get h y)).
Proof.
  intros I Po Hd Hs. destruct (i_obs h P I o k s Hd) as [Ho Hpo].
  assert (Lk : link h s o k) by (apply (i_mirror h P I); auto).
  assert (Lu : forall s', link h s' o k -> s' = s) by (intros s' L'; apply (i_mirror h P I) in L'; auto; eapply dep_fun; eauto).
  destruct (i_sub h P I s o k Lk) as [Hsub Hpres].
  assert (Hlt : s < length h) by now apply present_lt. assert (Hlo : o < length h) by now apply present_lt.
  unfold remove_dependency. rewrite access_ok by auto. cbn [bind]. unfold dep in Hd. rewrite Hd. fold (dep h o k s) in Hd.
  unfold detach. rewrite access_ok by auto. cbn [bind]. set (a := filter _ _). set (ha := set_aud h s a).
  assert (Lc : forall x y z, link ha x y z <-> link h x y z /\ ~ (x = s /\ y = o /\ z = k)) by (intros; now apply link_cut).
  assert (En : death_on_noparent del ha s = Ok ha).
  { destruct (selfdel_noparent del ha s) as [[E1 _]|[_ E]]; auto. unfold ha in E1. rewrite phase_set_aud in E1. contradiction. }
  replace (match a with [] => death_on_noparent del ha s | _ => Ok ha end) with (Ok ha) by (destruct a; auto).
  cbn [bind]. rewrite access_ok by (unfold ha; now rewrite phase_set_aud). cbn [bind].
  assert (Eq : odeps (get ha o) = odeps (get h o)) by (unfold ha; apply deps_set_aud). rewrite Eq.
  rewrite wr_ok by (eapply dep_lt; eauto). cbn [bind].
  set (hc := set_deps ha o _).
  assert (Dc : forall o' i s', dep hc o' i s' <-> dep h o' i s' /\ ~ at_ o k o' i).
  { intros o' i s'. unfold hc. rewrite (dep_after_remove ha o k (odeps (get h o)) o' i s'); [|unfold ha; now rewrite len_set_aud|auto]. unfold ha. now rewrite dep_set_aud. }
  assert (Lh : forall x y z, link hc x y z <-> link h x y z /\ ~ at_ o k y z).
  { intros x y z. unfold hc. rewrite link_set_deps, Lc. unfold at_. split.
    - intros [G1 G2]. split; auto. intros [-> ->]. apply G2. now rewrite (Lu x G1).
    - intros [G1 G2]. split; auto. tauto. }
  assert (Hla : o < length ha) by (unfold ha; now rewrite len_set_aud).
  exists hc. split; auto. split; [|split].
  - constructor.
    + intros o' i s' HP. rewrite Dc, Lh, (i_mirror h P I) by auto. reflexivity.
    + intros x. unfold hc. destruct (Nat.eq_dec x o) as [->|Hne]; [rewrite deps_set_deps_same by auto; apply pop_nulls_NT|].
      rewrite deps_set_deps_other by auto. unfold ha. rewrite deps_set_aud. apply I.
    + intros x i t G. unfold hc, ha. autorewrite with heap. apply Dc in G. eapply (i_obs _ _ I). apply G.
    + intros x y z G. unfold hc, ha. autorewrite with heap. apply Lh in G. eapply (i_sub _ _ I). apply G.
    + intros x i G. unfold hc, ha. autorewrite with heap. now apply (i_P _ _ I x i).
    + intros x G. unfold hc, ha in *. autorewrite with heap in G. destruct (Nat.eq_dec x o) as [->|Hne].
      * rewrite deps_set_deps_same by auto. pose proof (pop_nulls_len (set_nth k None (odeps (get h o)))) as G2. rewrite length_set_nth in G2.
        pose proof (i_var _ _ I o G). lia.
      * rewrite deps_set_deps_other by auto. rewrite deps_set_aud. now apply I.
  - constructor; unfold nodead.
    + unfold hc, ha. now autorewrite with heap.
    + intros x. unfold hc, ha. now autorewrite with heap.
    + discriminate.
    + intros x _. unfold hc, ha. now autorewrite with heap.
    + intros x i t _. rewrite Dc. intuition.
    + intros x i t HP. rewrite Dc. unfold at_. split; [tauto|]. intros G. split; auto. intros [-> ->]. now apply (Po k).
    + intros t x i. rewrite Lh. intuition.
    + auto.
    + intros c y z _ Hc Hl Hsd L. exists y, z. apply Lh. split; auto. intros [-> ->]. apply Hc. symmetry. now apply Lu.
    + discriminate.
    + intros x. destruct (Nat.eq_dec s x); auto.
    + intros x i. unfold at_. destruct (Nat.eq_dec x o), (Nat.eq_dec i k); tauto.
  - intros y. unfold hc, ha. now autorewrite with heap.
Qed.

(** removing several dependencies of one observer on a dying subject *)
Lemma rem_many del P o s l : (forall o i, ~ P o i) -> forall h, Inv h P -> ophase (get h s) <> Live -> NoDup l ->
  (forall i, In i l -> dep h o i s) ->
  exists h', each (fun h i => remove_dependency del h o i) l h = Ok h' /\ Inv h' P /\
    Rel (eq s) (eq s) nodead (fun o' i => o' = o /\ In i l) P h h' /\ (forall y, ophase (get h' y) = ophase (get h y)).
Proof.
  intros NP. induction l as [|k l IH]; intros h I Hs Nd Hin.
  - exists h. split; auto. split; auto. split; auto. apply (Rel_S_ext _ _ _ none); [apply Rel_refl; intros y; destruct (Nat.eq_dec s y); auto|intros; right; intros [_ []]| |]; intros; unfold none; cbn; tauto.
  - inversion Nd as [|? ? Nk Nl]; subst.
    destruct (rem_simple del h P o k s (eq s) I) as [h1 [E1 [I1 [R1 P1]]]]; auto; [apply Hin; now left|].
    destruct (IH h1) as [h2 [E2 [I2 [R2 P2]]]]; auto.
    + now rewrite P1.
    + intros i Hi. apply (r_dep _ _ _ _ _ _ _ R1); auto. split; [apply Hin; now right|]. unfold at_, nodead. split; auto. intros [_ ->]. contradiction.
    + exists h2. cbn [each]. rewrite E1. cbn [bind]. split; auto. split; auto. split; [|intros y; now rewrite P2, P1].
      assert (C : Rel (eq s) (eq s) (fun o => nodead o || nodead o) (fun o' i => at_ o k o' i \/ (o' = o /\ In i l)) P h h2).
      { eapply Rel_comp; [intros; right; apply NP|exact R1|exact R2| | |].
        - intros r <-. now apply dead_root.
        - intros r <-. now apply dead_root.
        - intros s' o' i L [-> ->]. right. apply (i_mirror h P I) in L; auto. assert (s' = s) by (eapply dep_fun; [exact L|apply Hin; now left]). subst. now apply dead_root. }
      apply (Rel_S_ext _ _ _ _ _ _ _ _ C).
      * intros o' i. destruct (Nat.eq_dec o' o); [|tauto]. destruct (in_dec Nat.eq_dec i (k :: l)); tauto.
      * intros o' i _ _ _. unfold at_. cbn. intuition.
      * intros _ o' i _. unfold at_. cbn. intuition.
Qed.

Lemma indices_iff h s v i : In i (indices (oaud (get h s)) v) <-> link h s v i.
Proof.
  unfold indices, link. rewrite nodup_In, in_map_iff. split.
  - intros [[a b] [E H]]. apply filter_In in H. destruct H as [H1 H2]. cbn in *. apply Nat.eqb_eq in H2. now subst.
  - intros H. exists (v, i). split; auto. apply filter_In. split; auto. cbn. apply Nat.eqb_refl.
Qed.
Lemma viewers_iff h s v : In v (viewers (oaud (get h s))) <-> exists i, link h s v i.
Proof.
  unfold viewers, link. rewrite nodup_In, in_map_iff. split.
  - intros [[a b] [E H]]. cbn in E. subst. eauto.
  - intros [i H]. exists (v, i). auto.
Qed.

Lemma each_inv {A} (f : heap -> A -> res heap) (Q : heap -> list A -> Prop) l : forall h done, Q h done ->
  (forall h done a, Q h done -> In a l -> exists h', f h a = Ok h' /\ Q h' (a :: done)) ->
  exists h', each f l h = Ok h' /\ Q h' (rev l ++ done).
Proof.
  induction l as [|a l IH]; intros h done H0 Hs; [exists h; auto|].
  destruct (Hs h done a H0) as [h1 [E1 Q1]]; [now left|].
  destruct (IH h1 (a :: done) Q1) as [h2 [E2 Q2]]; [intros; apply Hs; auto; now right|].
  exists h2. cbn [each]. rewrite E1. cbn [bind]. split; auto. cbn [rev]. now rewrite <- app_assoc.
Qed.

Section Ord.
Context (ord : list nat -> list nat) (Hord : forall l, Permutation (ord l) l).

Lemma notify_ok del n h P x :
  DelSpec del n -> nlive h <= n -> Inv h P -> UpCtx h P -> ophase (get h x) = DyingSub ->
  exists h' D S, notify_unsubscribe ord del h x = Ok h' /\ Inv h' P /\ Rel (eq x) (eq x) D S P h h' /\
    ophase (get h' x) = DyingSub /\ (forall o i, ~ link h' x o i) /\
    (forall o i, S o i -> dep h o i x /\ (D o = true \/ okind (get h o) = KVar)).
Proof.
  intros HD Hn I [NP [NO NS]] Phx. unfold notify_unsubscribe. rewrite access_ok by congruence. cbn [bind].
  set (vs := ord (viewers (oaud (get h x)))).
  match goal with |- context [each ?f vs h] => set (body := f) end.
  set (Q := fun hk (done : list nat) => exists D S, Inv hk P /\ Rel (eq x) (eq x) D S P h hk /\ ophase (get hk x) = DyingSub /\
    (forall v i, In v done -> ~ link hk x v i) /\ (forall o i, S o i -> dep h o i x /\ (D o = true \/ okind (get h o) = KVar))).
  assert (Loop : exists h', each body vs h = Ok h' /\ Q h' (rev vs ++ [])).
  { apply each_inv.
    - exists nodead, none. split; auto. split; [apply Rel_refl; intros y; destruct (Nat.eq_dec x y); auto|]. split; auto. split; [intros v i []|intros o i []].
    - intros hk done v [D [S [Ik [Rk [Pk [Nk Sk]]]]]] Hv. unfold body. rewrite access_ok by congruence. cbn [bind].
      assert (Dx : D x = false). { destruct (D x) eqn:E; auto. now contradiction (r_DE _ _ _ _ _ _ _ Rk x E). }
      assert (Dsub : forall o i s, dep hk o i s -> dep h o i s) by (intros o i s G; apply (r_dep _ _ _ _ _ _ _ Rk) in G; auto; tauto).
      assert (Nlk : nlive hk <= n).
      { etransitivity; [eapply Rel_nlive; [exact Rk|intros e <-; congruence]|exact Hn]. }
      assert (Skh : forall s o i, link h s o i -> S o i -> dead h (eq x) o \/ dead h (eq x) s).
      { intros s o i L G. right. apply (i_mirror h P I) in L; auto. destruct (Sk o i G) as [G1 _]. rewrite (dep_fun _ _ _ _ _ L G1). now apply dead_root. }
      assert (NOk : forall o, ophase (get hk o) <> DyingObs).
      { intros o. destruct (Nat.eq_dec x o) as [<-|Hne]; [congruence|]. pose proof (r_phase _ _ _ _ _ _ _ Rk o Hne) as G.
        destruct (D o); [destruct G; congruence|]. rewrite G. auto. }
      assert (NSk : forall o i s, ophase (get hk o) = DyingSub -> ~ dep hk o i s).
      { intros o i s Ho G. apply Dsub in G. destruct (Nat.eq_dec x o) as [<-|Hne]; [now apply NS in G|].
        pose proof (r_phase _ _ _ _ _ _ _ Rk o Hne) as G'. destruct (D o); [destruct G'; congruence|]. rewrite G' in Ho. now apply NS in G. }
      remember (indices (oaud (get hk x)) v) as idxs eqn:Eix.
      assert (Hix : forall i, In i idxs <-> link hk x v i) by (intros; rewrite Eix; apply indices_iff).
      assert (Ndx : NoDup idxs) by (rewrite Eix; apply NoDup_nodup). clear Eix.
      assert (C : idxs = [] \/ exists i, In i idxs) by (destruct idxs as [|i ?]; [now left|right; exists i; now left]).
      destruct C as [->|[i0 Hi0]].
      + exists hk. split; auto. exists D, S. split; auto. split; auto. split; auto. split; auto.
        intros v' i [<-|G]; auto. intros L. now apply Hix in L.
      + destruct idxs as [|j0 l0]; [destruct Hi0|]. remember (j0 :: l0) as idxs eqn:Eix in *. clear Eix.
        unfold unsubscribed.
        assert (Hox : forall i, In i (ord idxs) <-> link hk x v i).
        { intros i. rewrite <- Hix. split; apply Permutation_in; [apply Hord|apply Permutation_sym, Hord]. }
        assert (Hd0 : dep hk v i0 x) by (apply (i_mirror hk P Ik); auto; now apply Hix).
        destruct (i_obs hk P Ik v i0 x Hd0) as [Hvo Hvp].
        assert (Pv : ophase (get hk v) = Live).
        { destruct (ophase (get hk v)) eqn:E; auto; [now apply NOk in E|now apply (NSk v i0 x) in E|congruence]. }
        destruct (rem_many del P v x (ord idxs) NP hk Ik) as [h1 [E1 [I1 [R1 P1]]]]; [congruence| | |].
        { apply (Permutation_NoDup (Permutation_sym (Hord idxs))). exact Ndx. }
        { intros i Hi. apply (i_mirror hk P Ik); auto. now apply Hox. }
        rewrite E1. cbn [bind].
        assert (R01 : Rel (eq x) (eq x) (fun o => D o || nodead o) (fun o i => S o i \/ (o = v /\ In i (ord idxs))) P h h1).
        { eapply Rel_comp; [intros; right; apply NP|exact Rk|exact R1| | |exact Skh]; intros r <-; now apply dead_root. }
        assert (Kv : okind (get h1 v) = okind (get hk v)) by apply (r_kind _ _ _ _ _ _ _ R1).
        assert (Kv0 : okind (get hk v) = okind (get h v)) by apply (r_kind _ _ _ _ _ _ _ Rk).
        assert (Nv1 : forall i, ~ link h1 x v i).
        { intros i L. apply (r_link _ _ _ _ _ _ _ R1) in L. destruct L as [L1 [L2 _]]. apply L2. split; auto. now apply Hox. }
        assert (Sv1 : forall o i, (S o i \/ (o = v /\ In i (ord idxs))) -> dep h o i x).
        { intros o i [G|[-> G]]; [now apply Sk|]. apply Dsub. apply (i_mirror hk P Ik); auto. now apply Hox. }
        assert (Done1 : forall h2, (forall s o i, link h2 s o i -> link h1 s o i) -> forall v' i, In v' (v :: done) -> ~ link h2 x v' i).
        { intros h2 Sub v' i [<-|G] L; apply Sub in L; [now apply Nv1 in L|].
          apply (r_link _ _ _ _ _ _ _ R1) in L. destruct L as [L _]. now apply Nk in L. }
        unfold death_on_broken. rewrite access_ok by (rewrite P1; congruence). cbn [bind]. rewrite P1, Pv, Kv.
        destruct (okind (get hk v)) eqn:Ekv; try discriminate Hvo.
        1,2: destruct (HD h1 v P) as [h2 [D2 [E2 [I2 [D2v [R2 _]]]]]];
          [exact I1|intros; right; apply NP|congruence|auto|
           etransitivity; [eapply Rel_nlive; [exact R1|intros e <-; rewrite P1; congruence]|exact Nlk]| |].
        1,3: right; split; [exact NP|split; [intros o; rewrite P1; apply NOk|]];
          intros o i s; rewrite P1; intros G1 G2; apply (NSk o i s G1); apply (r_dep _ _ _ _ _ _ _ R1) in G2; auto; tauto.
        1,2: exists h2; split; [exact E2|];
          assert (D2x : D2 x = false) by (destruct (D2 x) eqn:E; auto; pose proof (r_phase _ _ _ _ _ _ _ R2 x (fun f => f)) as G; rewrite E, P1 in G; destruct G; congruence);
          exists (fun o => (D o || nodead o) || D2 o), (fun o i => (S o i \/ (o = v /\ In i (ord idxs))) \/ none o i);
          split; [exact I2|split; [|split; [|split]]].
        1,5: eapply Rel_comp; [intros; right; apply NP|exact R01|apply Rel_weaken; [exact R2|exact D2x]| | |].
        1,4: intros r <-; apply (dead_up h (eq x) v i0 x); [unfold fragile; rewrite <- Kv0; auto|now apply Dsub|now apply dead_root].
        1,3: intros r <-; now apply dead_root.
        1,2: intros s o i L G; right; apply (i_mirror h P I) in L; auto; rewrite (dep_fun _ _ _ _ _ L (Sv1 o i G)); now apply dead_root.
        1,4: pose proof (r_phase _ _ _ _ _ _ _ R2 x (fun f => f)) as G; rewrite D2x in G; rewrite G, P1; exact Pk.
        1,3: apply Done1; intros s o i L; apply (r_link _ _ _ _ _ _ _ R2) in L; tauto.
        1,2: intros o i [G|[]]; split; [now apply Sv1|]; destruct G as [G|[-> G]]; [destruct (Sk o i G) as [_ [G'|G']]; [left; rewrite G'; reflexivity|now right]|left; rewrite D2v; apply orb_true_r].
        (* varptr *)
        assert (Nd1 : forall i s, ~ dep h1 v i s).
        { intros i s G. apply (r_dep _ _ _ _ _ _ _ R1) in G; auto. destruct G as [G1 [G2 _]]. apply G2. split; auto. apply Hox.
          pose proof (i_var hk P Ik v Ekv) as Lv. pose proof (dep_lt _ _ _ _ G1) as L1. pose proof (dep_lt _ _ _ _ Hd0) as L0.
          replace i with i0 by lia. now apply Hix. }
        assert (Ev : (match odeps (get h1 v) with [] => Ok h1 | _ :: _ => remove_dependency del h1 v 0 end) = Ok h1).
        { destruct (odeps (get h1 v)) as [|e l] eqn:Eo; auto. unfold remove_dependency. rewrite access_ok by (rewrite P1; congruence). cbn [bind]. rewrite Eo. cbn [nth_error].
          destruct e as [s|]; auto. exfalso. apply (Nd1 0 s). unfold dep. now rewrite Eo. }
        exists h1. split; [exact Ev|]. exists (fun o => D o || nodead o), (fun o i => S o i \/ (o = v /\ In i (ord idxs))).
        split; auto. split; [exact R01|]. split; [now rewrite P1|]. split; [now apply Done1|].
        intros o i G. split; [now apply Sv1|]. destruct G as [G|[-> G]]; [destruct (Sk o i G) as [_ [G'|G']]; [left; rewrite G'; reflexivity|now right]|right; congruence]. }
  destruct Loop as [h' [E [D [S [Ih [Rh [Ph [Nh Sh]]]]]]]]. exists h', D, S. split; auto. split; auto. split; auto. split; auto. split; auto.
  intros o i L. apply (Nh o i); auto. rewrite app_nil_r, <- in_rev. unfold vs.
  apply (Permutation_in o (Permutation_sym (Hord _))). apply viewers_iff. exists i. apply (r_link _ _ _ _ _ _ _ Rh) in L. tauto.
Qed.

Lemma Inv_set_phase h P x p : Inv h P -> (forall i, ~ P x i) -> p <> Gone -> ophase (get h x) <> Gone -> Inv (set_phase h x p) P.
Proof.
  intros I Px Hp Hx. pose proof (present_lt h x Hx) as Lx. constructor.
  - intros o i s HP. rewrite dep_set_phase, link_set_phase. now apply I.
  - intros o. rewrite deps_set_phase. apply I.
  - intros o i s. rewrite dep_set_phase, kind_set_phase. intros G. destruct (i_obs h P I o i s G) as [G1 G2]. split; auto.
    destruct (Nat.eq_dec x o) as [<-|]; [rewrite phase_set_phase_same; auto|rewrite phase_set_phase_other; auto].
  - intros s o i. rewrite link_set_phase, kind_set_phase. intros G. destruct (i_sub h P I s o i G) as [G1 G2]. split; auto.
    destruct (Nat.eq_dec x s) as [<-|]; [rewrite phase_set_phase_same; auto|rewrite phase_set_phase_other; auto].
  - intros o i G. rewrite kind_set_phase. destruct (Nat.eq_dec x o) as [<-|]; [now apply Px in G|]. rewrite phase_set_phase_other; auto. now apply (i_P h P I o i).
  - intros o. rewrite kind_set_phase, deps_set_phase. apply I.
Qed.

Lemma Inv_set_gone h P x : Inv h P -> (forall i, ~ P x i) -> (forall i s, ~ dep h x i s) -> (forall o i, ~ link h x o i) -> Inv (set_phase h x Gone) P.
Proof.
  intros I Px Nd Nl. constructor.
  - intros o i s HP. rewrite dep_set_phase, link_set_phase. now apply I.
  - intros o. rewrite deps_set_phase. apply I.
  - intros o i s. rewrite dep_set_phase, kind_set_phase. intros G. destruct (i_obs h P I o i s G) as [G1 G2]. split; auto.
    destruct (Nat.eq_dec x o) as [<-|]; [now apply Nd in G|rewrite phase_set_phase_other; auto].
  - intros s o i. rewrite link_set_phase, kind_set_phase. intros G. destruct (i_sub h P I s o i G) as [G1 G2]. split; auto.
    destruct (Nat.eq_dec x s) as [<-|]; [now apply Nl in G|rewrite phase_set_phase_other; auto].
  - intros o i G. rewrite kind_set_phase. destruct (Nat.eq_dec x o) as [<-|]; [now apply Px in G|]. rewrite phase_set_phase_other; auto. now apply (i_P h P I o i).
  - intros o. rewrite kind_set_phase, deps_set_phase. apply I.
Qed.

Lemma nlive_set_phase h x p n : ophase (get h x) = Live -> p <> Live -> nlive h <= S n -> nlive (set_phase h x p) <= n.
Proof.
  intros Hx Hp Hn. assert (x < length h) by (apply present_lt; congruence).
  assert (nlive (set_phase h x p) < nlive h); [|lia]. apply (nlive_lt _ _ x); auto.
  - apply len_set_phase.
  - intros y. destruct (Nat.eq_dec x y) as [<-|]; [auto|now rewrite phase_set_phase_other].
  - now rewrite phase_set_phase_same.
Qed.

Lemma delete_ok fuel : DelSpec (delete ord fuel) fuel.
Proof.
  induction fuel as [|fuel IH]; intros h x P I DP Hx Px Hn Ctx; [pose proof (nlive_pos h x Hx); lia|].
  cbn [delete]. rewrite Hx. assert (Lx : x < length h) by (apply present_lt; congruence).
  (* first stage *)
  assert (A : exists h2 D1, (if has_obs (okind (get h x)) then observer_dtor (delete ord fuel) (set_phase h x DyingObs) x else Ok h) = Ok h2 /\
     Inv h2 P /\ Rel (eq x) (eq x) D1 (fun o _ => o = x) P h h2 /\ (forall i s, ~ dep h2 x i s) /\ ophase (get h2 x) <> Gone /\ ophase (get h2 x) <> DyingSub /\
     (forall p, p <> Live -> nlive (set_phase h2 x p) <= fuel) /\
     (forall c o i, D1 c = true -> link h c o i -> D1 o = true \/ o = x) /\ (forall c, D1 c = true -> selfdel (okind (get h c)))).
  { destruct (has_obs (okind (get h x))) eqn:Ho.
    - set (h1 := set_phase h x DyingObs).
      assert (I1 : Inv h1 P) by (apply Inv_set_phase; auto; congruence).
      assert (Ph1 : ophase (get h1 x) = DyingObs) by now apply phase_set_phase_same.
      assert (N1 : nlive h1 <= fuel) by (now apply nlive_set_phase).
      destruct (dtor_ok (delete ord fuel) fuel h1 P x IH N1 I1 DP Px Ph1) as [h2 [D [E [I2 [Dx [R2 [Nd [U2 V2]]]]]]]].
      assert (Ph2 : ophase (get h2 x) = DyingObs).
      { pose proof (r_phase _ _ _ _ _ _ _ R2 x (fun f => f)) as G. rewrite Dx in G. congruence. }
      exists h2, (fun o => nodead o || D o). split; auto. split; auto. split.
      + eapply Rel_S_ext; [eapply Rel_comp; [exact DP|apply (Rel_set_phase (eq x) P h x DyingObs)|apply Rel_weaken; [exact R2|exact Dx]| | |]| | |].
        * intros r <-. now apply dead_root.
        * intros r <-. now apply dead_root.
        * intros s o i _ [].
        * intros o _. destruct (Nat.eq_dec o x); auto.
        * unfold none. intuition.
        * unfold none. intuition.
      + split; auto. split; [congruence|]. split; [congruence|]. split; [|split; [intros c o i G1 G2; apply (U2 c o i G1); unfold h1; now apply link_set_phase|intros c Dc; specialize (V2 c Dc); unfold h1 in V2; now rewrite kind_set_phase in V2]]. intros p Hp. etransitivity; [|exact N1].
        apply nlive_le; [rewrite len_set_phase; apply R2|]. intros y Hy. destruct (Nat.eq_dec x y) as [<-|Hne].
        * rewrite phase_set_phase_same in Hy; [contradiction|]. rewrite (r_len _ _ _ _ _ _ _ R2). unfold h1. now rewrite len_set_phase.
        * rewrite phase_set_phase_other in Hy by auto. pose proof (r_phase _ _ _ _ _ _ _ R2 y (fun f => f)) as G. destruct (D y); [destruct G; congruence|congruence].
    - assert (Nd : forall i s, ~ dep h x i s) by (intros i s G; destruct (i_obs h P I x i s G); congruence).
      exists h, nodead. split; auto. split; auto. split; [|split; [auto|split; [congruence|split; [congruence|split; [intros; now apply nlive_set_phase|split; discriminate]]]]].
      apply (Rel_S_ext _ _ _ none); [apply Rel_refl; intros y; destruct (Nat.eq_dec x y); auto|intros o _; destruct (Nat.eq_dec o x); auto| |].
      + intros o i s G _. split; [intros []|intros ->; now apply Nd in G].
      + intros s o i G. split; [intros []|intros ->]. apply (i_mirror h P I) in G; auto. now apply Nd in G. }
  destruct A as [h2 [D1 [E1 [I2 [R1 [Nd2 [Pr2 [Pr2' [N2 [U2 V2]]]]]]]]]]. rewrite E1. cbn [bind].
  assert (Lx2 : x < length h2) by (rewrite (r_len _ _ _ _ _ _ _ R1); auto).
  assert (D1x : D1 x = false). { destruct (D1 x) eqn:E; auto. now contradiction (r_DE _ _ _ _ _ _ _ R1 x E). }
  (* second stage *)
  assert (B : exists h4 D2 S2, (if has_sub (okind (get h x)) then noexcept (notify_unsubscribe ord (delete ord fuel) (set_phase h2 x DyingSub) x) else Ok h2) = Ok h4 /\
     Inv h4 P /\ Rel (eq x) (eq x) D2 S2 P h2 h4 /\ (forall o i, ~ link h4 x o i) /\
     (forall o i, S2 o i -> dep h2 o i x /\ ~ P o i /\ (D2 o = true \/ okind (get h2 o) = KVar)) /\
     ((forall o i, ~ link h x o i) -> forall c, D2 c = false)).
  { destruct (has_sub (okind (get h x))) eqn:Hs.
    - set (h3 := set_phase h2 x DyingSub).
      assert (I3 : Inv h3 P) by (apply Inv_set_phase; auto; congruence).
      assert (Ph3 : ophase (get h3 x) = DyingSub) by now apply phase_set_phase_same.
      assert (N3 : nlive h3 <= fuel) by (now apply N2).
      assert (R23 : Rel (eq x) (eq x) nodead none P h2 h3) by apply Rel_set_phase.
      assert (Ctx' : (forall o i, ~ link h x o i) \/ (UpCtx h P /\ exists o i, link h x o i)).
      { destruct (oaud (get h x)) as [|[a b] l] eqn:Ea; [left; intros o i L; unfold link in L; now rewrite Ea in L|].
        assert (L : link h x a b) by (unfold link; rewrite Ea; now left). destruct Ctx as [Dn|Up]; [now apply Dn in L|right; eauto]. }
      destruct Ctx' as [Dn|[[NP [NO NS]] [o0 [i0 L0]]]].
      + assert (Nl3 : forall o i, ~ link h3 x o i).
        { intros o i L. apply (r_link _ _ _ _ _ _ _ R23) in L. destruct L as [L _]. apply (r_link _ _ _ _ _ _ _ R1) in L. destruct L as [L _]. now apply Dn in L. }
        assert (Ea : oaud (get h3 x) = []).
        { destruct (oaud (get h3 x)) as [|[a b] l] eqn:E; auto. exfalso. apply (Nl3 a b). unfold link. rewrite E. now left. }
        exists h3, nodead, none. split; [|split; auto; split; [exact R23|split; [auto|split; [intros o i []|reflexivity]]]].
        unfold notify_unsubscribe. rewrite access_ok by congruence. cbn [bind]. rewrite Ea. unfold viewers. cbn [map nodup].
        rewrite (Permutation_nil (Permutation_sym (Hord []))). reflexivity.
      + assert (U3 : UpCtx h3 P).
        { split; [exact NP|]. assert (G : forall o, x <> o -> ophase (get h3 o) = ophase (get h o) \/ ophase (get h3 o) = Gone).
          { intros o Ho. unfold h3. rewrite phase_set_phase_other by auto. pose proof (r_phase _ _ _ _ _ _ _ R1 o Ho) as G. destruct (D1 o); [right; tauto|now left]. }
          split.
          - intros o. destruct (Nat.eq_dec x o) as [<-|Hne]; [congruence|]. destruct (G o Hne) as [->| ->]; [apply NO|discriminate].
          - intros o i s Ho Hd. unfold h3 in Hd. rewrite dep_set_phase in Hd. destruct (Nat.eq_dec x o) as [<-|Hne]; [now apply Nd2 in Hd|].
            destruct (G o Hne) as [G'|G']; [|congruence]. rewrite G' in Ho. apply (r_dep _ _ _ _ _ _ _ R1) in Hd; auto. now apply (NS o i s Ho). }
        destruct (notify_ok (delete ord fuel) fuel h3 P x IH N3 I3 U3 Ph3) as [h4 [D2 [S2 [E2 [I4 [R4 [Ph4 [Nl4 S24]]]]]]]].
        exists h4, (fun o => nodead o || D2 o), (fun o i => none o i \/ S2 o i). rewrite E2. split; auto. split; auto. split; [|split; auto].
        * eapply Rel_comp; [exact DP|exact R23|exact R4| | |]; [intros r <-; now apply dead_root|intros r <-; now apply dead_root|intros s o i _ []].
        * split; [|intros Dn; now apply Dn in L0].
          intros o i [[]|G]. destruct (S24 o i G) as [G1 G2]. unfold h3 in G1, G2. rewrite dep_set_phase in G1. rewrite kind_set_phase in G2. split; auto.
    - exists h2, nodead, none. split; auto. split; auto. split; [apply Rel_refl; intros y; destruct (Nat.eq_dec x y); auto|]. split; [|split; [intros o i []|reflexivity]].
      intros o i L. destruct (i_sub h2 P I2 x o i L) as [G _]. rewrite (r_kind _ _ _ _ _ _ _ R1) in G. congruence. }
  destruct B as [h4 [D2 [S2 [E2 [I4 [R2 [Nl4 [S24 U4]]]]]]]]. rewrite E2. cbn [bind].
  assert (Nd4 : forall i s, ~ dep h4 x i s) by (intros i s G; apply (r_dep _ _ _ _ _ _ _ R2) in G; auto; destruct G as [G _]; now apply Nd2 in G).
  set (D := fun o => D1 o || D2 o). set (Sv := fun o i => o = x \/ S2 o i).
  assert (R : Rel (eq x) (eq x) D Sv P h h4).
  { eapply Rel_comp; [exact DP|exact R1|exact R2| | |]; [intros r <-; now apply dead_root|intros r <-; now apply dead_root|intros s o i _ ->; left; now apply dead_root]. }
  assert (Dx : D x = false). { destruct (D x) eqn:E; auto. now contradiction (r_DE _ _ _ _ _ _ _ R x E). }
  assert (Svd : forall o i, o <> x -> Sv o i -> dep h o i x /\ ~ P o i /\ (D o = true \/ okind (get h o) = KVar)).
  { intros o i Ho [->|G]; [congruence|]. destruct (S24 o i G) as [G1 [G2 G3]]. split; [apply (r_dep _ _ _ _ _ _ _ R1) in G1; tauto|]. split; auto.
    rewrite (r_kind _ _ _ _ _ _ _ R1) in G3. destruct G3 as [G3|G3]; [left; unfold D; rewrite G3; apply orb_true_r|now right]. }
  assert (L4 : x < length h4) by (rewrite (r_len _ _ _ _ _ _ _ R); auto).
  exists (set_phase h4 x Gone), (fun o => (o =? x) || D o). split; auto. split; [now apply Inv_set_gone|]. split; [now rewrite Nat.eqb_refl|].
  split; [|intros Dn; split; [intros c o i Hc L; apply orb_true_iff in Hc; destruct Hc as [Hc|Hc]; [apply Nat.eqb_eq in Hc; subst; now apply Dn in L|];
    unfold D in Hc; rewrite (U4 Dn), orb_false_r in Hc; destruct (U2 c o i Hc L) as [G|G]; [unfold D; rewrite G; apply orb_true_r|rewrite G, Nat.eqb_refl; reflexivity]|
    intros c Hc; apply orb_true_iff in Hc; destruct Hc as [Hc|Hc]; [left; now apply Nat.eqb_eq|unfold D in Hc; rewrite (U4 Dn), orb_false_r in Hc; auto]]].
  assert (DD : forall o, (o =? x) || D o = false <-> o <> x /\ D o = false) by (intros o; rewrite orb_false_iff, Nat.eqb_neq; tauto).
  constructor.
  - rewrite len_set_phase. apply R.
  - intros o. rewrite kind_set_phase. apply R.
  - intros o _ [].
  - intros o _. destruct (Nat.eqb_spec o x) as [->|Hne]; cbn [orb].
    + split; auto. now apply phase_set_phase_same.
    + rewrite phase_set_phase_other by congruence. apply R. congruence.
  - intros o i s HP. rewrite dep_set_phase, (r_dep _ _ _ _ _ _ _ R) by auto. rewrite !DD. unfold none. split.
    + intros [G1 [G2 [G3 G4]]]. assert (G5 : dep h4 o i s) by (apply (r_dep _ _ _ _ _ _ _ R); auto). split; auto. split; auto. split; split; auto.
      * intros ->. now apply Nd4 in G5.
      * intros ->. apply (i_mirror h4 P I4) in G5; auto. now apply Nl4 in G5.
    + intros [G1 [_ [[G2 G3] [G4 G5]]]]. split; auto. split; auto. intros G. destruct (Svd o i G2 G) as [G6 _]. apply G4. eapply dep_fun; eauto.
  - intros o i s HP. rewrite dep_set_phase. now apply R.
  - intros s o i. rewrite link_set_phase, !DD. split.
    + intros G. assert (G' := G). apply (r_link _ _ _ _ _ _ _ R) in G'. destruct G' as [G1 [G2 [G3 G4]]]. split; auto. split; [intros []|]. split; split; auto.
      * intros ->. apply (i_mirror h4 P I4) in G; auto. now apply Nd4 in G.
      * intros ->. now apply Nl4 in G.
    + intros [G1 [_ [[G2 G3] [G4 G5]]]]. apply (r_link _ _ _ _ _ _ _ R). split; auto. split; auto. intros G. destruct (Svd o i G2 G) as [G6 [G7 _]].
      apply (i_mirror h P I) in G1; auto. apply G4. eapply dep_fun; eauto.
  - intros o i s Hd Hf Hdep HP _. apply DD in Hd. destruct Hd as [Hd1 Hd2]. rewrite DD.
    assert (NS : ~ Sv o i).
    { intros G. destruct (Svd o i Hd1 G) as [_ [_ [G'|G']]]; [congruence|]. destruct Hf as [Hf|Hf]; congruence. }
    split; [|eapply (r_up _ _ _ _ _ _ _ R); eauto]. intros ->.
    assert (G : dep h4 o i x) by (apply (r_dep _ _ _ _ _ _ _ R); auto). apply (i_mirror h4 P I4) in G; auto. now apply Nl4 in G.
  - intros c o i Hd _ Hl Hs L. apply DD in Hd. destruct Hd as [Hd1 Hd2]. destruct (r_ne _ _ _ _ _ _ _ R c o i) as [o' [i' G]]; auto.
    exists o', i'. now apply link_set_phase.
  - intros c Hc. apply orb_true_iff in Hc. destruct Hc as [Hc|Hc]; [apply Nat.eqb_eq in Hc; subst; now apply dead_root|now apply (r_sound _ _ _ _ _ _ _ R)].
  - intros o. right. intros [].
  - intros o i. right. intros [].
Qed.
End Ord.
