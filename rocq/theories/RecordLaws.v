(** C46: the allocator registry. C47: the edge recorders. *)
From Verif Require Import Common CacheModel CacheSpec CacheProofs CacheLaws RecordModel.

(** ---- specification ---- *)

(** the registrations made before position [k] of the history *)
Definition earlier (l : list (nat * nat)) (k : nat) : list (nat * nat) := firstn k l.

(** class and position of the first registration of [id] *)
Fixpoint first_of (id : nat) (l : list (nat * nat)) (pos : nat) : option (nat * nat) :=
  match l with
  | [] => None
  | (cls, i) :: l' => if i =? id then Some (pos, cls) else first_of id l' (S pos)
  end.

(** the edge was captured, and neither released nor its subject destroyed since *)
Definition standing (recordable : nat -> bool) (h : list rec_event) (o s i : nat) : Prop :=
  recordable o = true /\
  exists h1 h2, h = h1 ++ Capture o s i :: h2 /\ ~ In (Release o s i) h2 /\ ~ In (NodeGone s) h2.

(** ---- registry ---- *)

Lemma registertype_get r cls id id' : reg_get (fst (registertype r cls id)) id' =
  match reg_get r id' with
  | Some a => Some a
  | None => if id =? id' then Some (mkinst (created r) cls) else None
  end.
Proof.
  unfold registertype, reg_get. destruct (reg_find (bindings r) id) as [a|] eqn:E; simpl.
  - destruct (reg_find (bindings r) id') eqn:E'; auto. destruct (Nat.eqb_spec id id') as [->|]; auto. congruence.
  - destruct (Nat.eqb_spec id id') as [->|]; [now rewrite E|]. now destruct (reg_find (bindings r) id').
Qed.

Lemma registrations_app r l1 l2 :
  registrations r (l1 ++ l2) =
  let '(r1, b1) := registrations r l1 in let '(r2, b2) := registrations r1 l2 in (r2, b1 ++ b2).
Proof.
  revert r; induction l1 as [|[c i] l1 IH]; intros r; simpl.
  - now destruct (registrations r l2).
  - destruct (registertype r c i) as [r' b]. rewrite IH. destruct (registrations r' l1) as [r1 b1].
    destruct (registrations r1 l2); auto.
Qed.

Lemma registrations_keep l : forall r id a, reg_get r id = Some a -> reg_get (fst (registrations r l)) id = Some a.
Proof.
  induction l as [|[c i] l IH]; intros r id a E; simpl; auto.
  pose proof (registertype_get r c i id) as G. rewrite E in G.
  destruct (registertype r c i) as [r' b]. specialize (IH r' id a G). destruct (registrations r' l). auto.
Qed.

(** get: class of the first registration, null if there was none; identity preserved *)
Lemma registrations_get l : forall r id,
  match reg_get r id, first_of id l 0 with
  | Some a, _ => reg_get (fst (registrations r l)) id = Some a
  | None, Some (_, cls) => exists n, reg_get (fst (registrations r l)) id = Some (mkinst n cls) /\ created r <= n
  | None, None => reg_get (fst (registrations r l)) id = None
  end.
Proof.
  assert (FO : forall l0 id p, match first_of id l0 (S p), first_of id l0 p with
             | Some (_, c), Some (_, c') => c = c' | None, None => True | _, _ => False end).
  { induction l0 as [|[c i] l' IHl]; intros id p; simpl; auto. destruct (i =? id); auto. apply IHl. }
  induction l as [|[c i] l IH]; intros r id.
  - simpl. destruct (reg_get r id); auto.
  - pose proof (registertype_get r c i id) as G.
    destruct (reg_get r id) as [a|] eqn:E.
    + apply registrations_keep. auto.
    + simpl. assert (Hcr : created r <= created (fst (registertype r c i))).
      { unfold registertype. destruct (reg_find _ _); simpl; lia. }
      destruct (registertype r c i) as [r' b]. simpl in G, Hcr. specialize (IH r' id). rewrite G in IH.
      destruct (registrations r' l) as [r2 bs]. simpl in *.
      destruct (Nat.eqb_spec i id) as [->|Hne].
      * exists (created r). auto.
      * specialize (FO l id 0). destruct (first_of id l 0) as [[p1 c1]|], (first_of id l 1) as [[p2 c2]|]; try easy.
        subst c2. destruct IH as (n & IH1 & IH2). exists n; split; auto. lia.
Qed.

Definition fresh_ok (r : registry) : Prop :=
  (forall id a, reg_get r id = Some a -> inst_no a < created r) /\
  (forall id id' a, reg_get r id = Some a -> reg_get r id' = Some a -> id = id').

Lemma fresh_step r c i : fresh_ok r -> fresh_ok (fst (registertype r c i)).
Proof.
  intros [H1 H2].
  assert (Hcr : created (fst (registertype r c i)) = created r \/
                (created (fst (registertype r c i)) = S (created r))).
  { unfold registertype. destruct (reg_find _ _); simpl; lia. }
  assert (Hn : reg_get r i = None -> created (fst (registertype r c i)) = S (created r)).
  { unfold registertype, reg_get. intros ->. auto. }
  split.
  - intros id a. rewrite registertype_get. destruct (reg_get r id) as [a'|] eqn:E.
    + intros E'; injection E' as <-. specialize (H1 _ _ E). lia.
    + destruct (Nat.eqb_spec i id) as [->|]; [|discriminate]. intros E'; injection E' as <-. simpl. specialize (Hn E). lia.
  - intros id id' a. rewrite !registertype_get.
    destruct (reg_get r id) as [a1|] eqn:E1, (reg_get r id') as [a2|] eqn:E2.
    + intros E E'. injection E as ->. injection E' as ->. eauto.
    + destruct (Nat.eqb_spec i id') as [->|]; [|discriminate]. intros E E'. injection E as ->. injection E' as <-.
      specialize (H1 _ _ E1). simpl in H1. lia.
    + destruct (Nat.eqb_spec i id) as [->|]; [|discriminate]. intros E E'. injection E' as ->. injection E as <-.
      specialize (H1 _ _ E2). simpl in H1. lia.
    + destruct (Nat.eqb_spec i id), (Nat.eqb_spec i id'); try discriminate. congruence.
Qed.

Lemma fresh_all l : forall r, fresh_ok r -> fresh_ok (fst (registrations r l)).
Proof.
  induction l as [|[c i] l IH]; intros r H; simpl; auto.
  pose proof (fresh_step r c i H) as H'. destruct (registertype r c i) as [r' b]. simpl in H'.
  specialize (IH r' H'). destruct (registrations r' l). auto.
Qed.

Lemma fresh_new : fresh_ok registry_new.
Proof.
  split.
  - intros id a. unfold reg_get. simpl. destruct id; [|discriminate]. intros E; injection E as <-. simpl; lia.
  - intros id id' a. unfold reg_get. simpl. destruct id, id'; try discriminate; auto.
Qed.

(** registertype returns true exactly when the identifier is neither the default allocator's nor
    registered earlier. *)
Lemma C46_registered_once_lemma : forall l k cls id,
  nth_error l k = Some (cls, id) ->
  nth_error (snd (registrations registry_new l)) k =
  Some (negb ((id =? default_id) || existsb (fun p => snd p =? id) (earlier l k))).
Proof.
  assert (G : forall l r k cls id, nth_error l k = Some (cls, id) ->
     nth_error (snd (registrations r l)) k =
     Some (negb (match reg_get r id with Some _ => true | None => false end || existsb (fun p => snd p =? id) (firstn k l)))).
  { induction l as [|[c i] l IH]; intros r k cls id Ek; [destruct k; discriminate|].
    simpl. pose proof (registertype_get r c i id) as G. destruct (registertype r c i) as [r' b] eqn:Er. simpl in G.
    destruct (registrations r' l) as [r2 bs] eqn:E2. simpl.
    destruct k as [|k]; simpl in *.
    - injection Ek as -> ->. unfold registertype in Er. unfold reg_get.
      destruct (reg_find (bindings r) id); injection Er as <- <-; auto.
    - specialize (IH r' k cls id Ek). rewrite E2 in IH. simpl in IH. rewrite IH, G.
      destruct (reg_get r id); auto. simpl. destruct (i =? id); auto. }
  intros l k cls id Ek. rewrite (G l registry_new k cls id Ek). unfold reg_get, earlier, default_id. simpl.
  destruct id; auto.
Qed.

(** get returns an instance of the class registered first under the identifier (the default
    allocator for its own identifier), null when there is none; later registrations change
    nothing, and different identifiers have different instances. *)
Lemma C46_lookup_lemma : forall l id,
  match reg_get (fst (registrations registry_new l)) id with
  | Some a => (id = default_id /\ inst_class a = 0) \/
              (id <> default_id /\ exists k, first_of id l 0 = Some (k, inst_class a))
  | None => id <> default_id /\ first_of id l 0 = None
  end /\
  (forall l' a, reg_get (fst (registrations registry_new l)) id = Some a ->
     reg_get (fst (registrations registry_new (l ++ l'))) id = Some a) /\
  (forall id' a, reg_get (fst (registrations registry_new l)) id = Some a ->
     reg_get (fst (registrations registry_new l)) id' = Some a -> id = id').
Proof.
  intros l id. repeat split.
  - pose proof (registrations_get l registry_new id) as G. unfold reg_get at 1 in G. simpl in G. unfold default_id in *.
    destruct id as [|id].
    + rewrite G. left. auto.
    + destruct (first_of (S id) l 0) as [[p c]|].
      * destruct G as (n & -> & _). right. simpl. eauto.
      * rewrite G. auto.
  - intros l' a E. rewrite registrations_app. destruct (registrations registry_new l) as [r1 b1] eqn:E1. simpl in E.
    pose proof (registrations_keep l' r1 id a E) as H. destruct (registrations r1 l'); auto.
  - intros id' a. apply (fresh_all l registry_new fresh_new).
Qed.

(** check_registry<A>(id): something is registered there and its class is A or derives from A. *)
Lemma C46_check_registry_lemma : forall isa l cls id,
  check_registry isa (fst (registrations registry_new l)) cls id = true <->
  (id = default_id /\ isa 0 cls = true) \/
  (id <> default_id /\ exists k c, first_of id l 0 = Some (k, c) /\ isa c cls = true).
Proof.
  intros isa l cls id. destruct (C46_lookup_lemma l id) as (H & _ & _).
  unfold check_registry. unfold reg_get in H. destruct (reg_find _ id) as [a|].
  - destruct H as [[-> Hc]|[Hne [k Hk]]].
    + rewrite Hc. split; auto. intros [[_ ?]|[? _]]; auto; congruence.
    + split; [intros E; right; split; auto; eauto|]. intros [[? _]|[_ (k' & c' & E1 & E2)]]; [congruence|].
      assert (c' = inst_class a) by congruence. congruence.
  - destruct H as [H1 H2]. split; [discriminate|]. intros [[? _]|[_ (k & c & E & _)]]; congruence.
Qed.

Lemma C46_nonvacuous_lemma :
  snd (registrations registry_new [(3, 5); (4, 0); (6, 5); (7, 9)]) = [true; false; false; true] /\
  reg_get (fst (registrations registry_new [(3, 5); (4, 0); (6, 5); (7, 9)])) 5 = Some (mkinst 1 3) /\
  reg_get (fst (registrations registry_new [(3, 5); (4, 0); (6, 5); (7, 9)])) 4 = None.
Proof. repeat split. Qed.

(** ---- recorder ---- *)

Lemma pair_eq_spec p q : pair_eq p q = true <-> p = q.
Proof.
  destruct p as [a b], q as [c d]. unfold pair_eq; simpl. rewrite andb_true_iff, !Nat.eqb_eq. split; [intros [-> ->]; auto|].
  intros E; injection E; auto.
Qed.

(** subj_nodes has one entry per key, and sets without duplicates *)
Definition adj_ok (a : adj) : Prop := NoDup (map fst a) /\ forall s l, In (s, l) a -> NoDup l.

Lemma adj_find_in a s l : NoDup (map fst a) -> In (s, l) a <-> adj_find a s = Some l.
Proof.
  induction a as [|[k m] a IH]; simpl; intros HN; [easy|]. inversion HN; subst.
  destruct (Nat.eqb_spec k s) as [->|Hne].
  - split; [|intros E; injection E as ->; auto]. intros [E|Hin]; [congruence|].
    exfalso. apply H1. apply in_map_iff. exists (s, l). auto.
  - rewrite <- IH by auto. split; [intros [E|]; [congruence|auto]|auto].
Qed.

Lemma adj_find_erase a s s' : adj_find (adj_erase a s) s' = if s =? s' then None else adj_find a s'.
Proof.
  unfold adj_erase. induction a as [|[k l] a IH]; simpl.
  - now destruct (s =? s').
  - destruct (Nat.eqb_spec k s) as [->|Hne]; simpl.
    + rewrite IH. destruct (Nat.eqb_spec s s'); auto.
    + rewrite IH. destruct (Nat.eqb_spec k s') as [->|]; auto. destruct (Nat.eqb_spec s s'); [congruence|auto].
Qed.

Lemma adj_find_set a s l s' : adj_find (adj_set a s l) s' = if s =? s' then Some l else adj_find a s'.
Proof. unfold adj_set. simpl. destruct (Nat.eqb_spec s s'); auto. rewrite adj_find_erase. destruct (Nat.eqb_spec s s'); [congruence|auto]. Qed.

Lemma NoDup_filter_map {A B} (f : A -> B) P l : NoDup (map f l) -> NoDup (map f (filter P l)).
Proof.
  induction l as [|a l IH]; simpl; auto. intros H; inversion H; subst. destruct (P a); simpl; auto. constructor; auto.
  intros Hin. apply H2. apply in_map_iff in Hin as (x & <- & Hx). apply filter_In in Hx as [Hx _]. now apply in_map.
Qed.

Lemma erase_ok a s : adj_ok a -> adj_ok (adj_erase a s).
Proof.
  intros [H1 H2]. split; [now apply NoDup_filter_map|]. intros s' l Hin. apply filter_In in Hin as [Hin _]. eauto.
Qed.

Lemma set_ok a s l : adj_ok a -> NoDup l -> adj_ok (adj_set a s l).
Proof.
  intros H Hl. pose proof (erase_ok a s H) as [E1 E2]. split; simpl.
  - constructor; auto. intros Hin. apply in_map_iff in Hin as ([k m] & Ek & Hin). simpl in Ek; subst k.
    apply filter_In in Hin as [_ Hin]. simpl in Hin. now rewrite Nat.eqb_refl in Hin.
  - intros s' l' [E|Hin]; [congruence|eauto].
Qed.

Lemma insert_spec p q l : In q (set_insert p l) <-> q = p \/ In q l.
Proof.
  unfold set_insert. destruct (existsb (pair_eq p) l) eqn:E; simpl.
  - apply existsb_exists in E as (x & Hx & E). apply pair_eq_spec in E as ->. split; auto. intros [->|]; auto.
  - split; intros [|]; auto.
Qed.
Lemma insert_NoDup p l : NoDup l -> NoDup (set_insert p l).
Proof.
  unfold set_insert. destruct (existsb (pair_eq p) l) eqn:E; auto. intros H. constructor; auto. intros Hin.
  apply not_true_iff_false in E. apply E. apply existsb_exists. exists p. split; auto. now apply pair_eq_spec.
Qed.
Lemma erase_spec p q l : In q (set_erase p l) <-> q <> p /\ In q l.
Proof.
  unfold set_erase. rewrite filter_In, negb_true_iff. split.
  - intros [H1 H2]. split; auto. intros ->. apply not_true_iff_false in H2. now apply H2, pair_eq_spec.
  - intros [H1 H2]. split; auto. apply not_true_iff_false. intros E. apply pair_eq_spec in E. congruence.
Qed.

(** membership of an edge *)
Definition listed (a : adj) (o s i : nat) : Prop := exists l, adj_find a s = Some l /\ In (o, i) l.

Lemma listed_edges a o s i : adj_ok a -> In (o, s, i) (edges a) <-> listed a o s i.
Proof.
  intros [H1 H2]. unfold edges, listed. rewrite in_flat_map. split.
  - intros ([k l] & Hin & Hm). simpl in Hm. apply in_map_iff in Hm as ([o' i'] & E & Hq). simpl in E. injection E as -> -> ->.
    exists l. split; auto. now apply adj_find_in.
  - intros (l & E & Hin). exists (s, l). split; [now apply adj_find_in|]. simpl. apply in_map_iff. exists (o, i). auto.
Qed.

Lemma NoDup_map_inj {A B} (f : A -> B) l : (forall x y, f x = f y -> x = y) -> NoDup l -> NoDup (map f l).
Proof.
  intros Hf. induction 1 as [|x l Hx Hl IH]; simpl; constructor; auto.
  intros Hin. apply in_map_iff in Hin as (y & E & Hy). apply Hf in E. congruence.
Qed.
Lemma NoDup_join {A} (l1 l2 : list A) : NoDup l1 -> NoDup l2 -> (forall x, In x l1 -> ~ In x l2) -> NoDup (l1 ++ l2).
Proof.
  intros H1 H2. induction H1 as [|x l Hx Hl IH]; simpl; auto. intros Hd. constructor.
  - intros Hin. apply in_app_or in Hin as [|Hin]; auto. apply (Hd x); auto.
  - apply IH. intros y Hy. apply Hd. auto.
Qed.

Lemma edges_NoDup a : adj_ok a -> NoDup (edges a).
Proof.
  unfold edges. induction a as [|[k l] a IH]; simpl; intros [H1 H2]; [constructor|]. inversion H1; subst.
  apply NoDup_join.
  - apply NoDup_map_inj; [|apply (H2 k); now left].
    intros [a1 b1] [a2 b2] E. simpl in E. injection E as -> ->. auto.
  - apply IH. split; auto. intros s' l' Hin. apply (H2 s'). now right.
  - intros x Hx Hin. apply in_map_iff in Hx as (q & <- & _).
    apply in_flat_map in Hin as ([k' l'] & Hin & Hq). simpl in Hq. apply in_map_iff in Hq as (q' & E & _).
    injection E as _ -> _. apply H3. apply in_map_iff. exists (k, l'). auto.
Qed.

Section Recorder.
Context (recordable : nat -> bool).

Lemma capture_ok a o s i : adj_ok a -> adj_ok (edge_capture recordable a o s i) /\
  forall o' s' i', listed (edge_capture recordable a o s i) o' s' i' <->
     (recordable o = true /\ o' = o /\ s' = s /\ i' = i) \/ listed a o' s' i'.
Proof.
  intros H. unfold edge_capture. destruct (recordable o) eqn:Er; simpl.
  2:{ split; auto. intros. split; auto. intros [[? _]|]; auto; discriminate. }
  destruct (adj_find a s) as [l|] eqn:E.
  - rewrite E. split.
    + apply set_ok; auto. apply insert_NoDup. destruct H as [H1 H2]. apply (H2 s). now apply adj_find_in.
    + intros o' s' i'. unfold listed. rewrite adj_find_set. destruct (Nat.eqb_spec s s') as [<-|Hne].
      * split.
        -- intros (l' & El & Hin). injection El as <-. apply insert_spec in Hin as [Eq|Hin]; [injection Eq as -> ->; auto|right; eauto].
        -- intros [(_ & -> & _ & ->)|(l' & El & Hin)]; (eexists; split; [reflexivity|]); apply insert_spec; auto.
           right. congruence.
      * split; auto. intros [(_ & _ & ? & _)|]; auto. congruence.
  - simpl. rewrite Nat.eqb_refl.
    assert (Hs : adj_ok ((s, []) :: a)).
    { destruct H as [H1 H2]. split; simpl.
      - constructor; auto. intros Hin. apply in_map_iff in Hin as ([k m] & Ek & Hin). simpl in Ek; subst k.
        apply adj_find_in in Hin; auto. congruence.
      - intros s' l' [Eq|Hin]; [injection Eq as <- <-; constructor|eauto]. }
    split.
    + apply set_ok; auto. apply insert_NoDup. constructor.
    + intros o' s' i'. unfold listed. rewrite adj_find_set. destruct (Nat.eqb_spec s s') as [<-|Hne].
      * split.
        -- intros (l' & El & Hin). injection El as <-. apply insert_spec in Hin as [Eq|[]]. injection Eq as -> ->. auto.
        -- intros [(_ & -> & _ & ->)|(l' & El & _)]; [|congruence]. eexists; split; [reflexivity|]. now left.
      * simpl. destruct (Nat.eqb_spec s s'); [congruence|]. split; auto. intros [(_ & _ & ? & _)|]; auto. congruence.
Qed.

Lemma release_ok a o s i : adj_ok a -> adj_ok (edge_release a o s i) /\
  forall o' s' i', listed (edge_release a o s i) o' s' i' <-> ~ (o' = o /\ s' = s /\ i' = i) /\ listed a o' s' i'.
Proof.
  intros H. unfold edge_release. destruct (adj_find a s) as [l|] eqn:E.
  - split.
    + apply set_ok; auto. apply NoDup_filter. destruct H as [H1 H2]. apply (H2 s). now apply adj_find_in.
    + intros o' s' i'. unfold listed. rewrite adj_find_set. destruct (Nat.eqb_spec s s') as [<-|Hne].
      * split.
        -- intros (l' & El & Hin). injection El as <-. apply erase_spec in Hin as [Hn Hin]. split; eauto.
           intros (-> & _ & ->). congruence.
        -- intros [Hn (l' & El & Hin)]. eexists; split; [reflexivity|]. apply erase_spec. split; [|congruence].
           intros Eq. injection Eq as -> ->. tauto.
      * split; [intros Hl; split; auto; intros (_ & ? & _); congruence|tauto].
  - split; auto. intros o' s' i'. split; [|tauto]. intros Hl. split; auto. intros (_ & -> & _). destruct Hl as (l & El & _). congruence.
Qed.

Lemma node_ok a s : adj_ok a -> adj_ok (node_release a s) /\
  forall o' s' i', listed (node_release a s) o' s' i' <-> s' <> s /\ listed a o' s' i'.
Proof.
  intros H. split; [now apply erase_ok|]. intros o' s' i'. unfold listed, node_release. rewrite adj_find_erase.
  destruct (Nat.eqb_spec s s') as [<-|Hne].
  - split; [intros (l & E & _); discriminate|intros [? _]; congruence].
  - split; [intros; split; auto|tauto].
Qed.

Lemma history_ok h : adj_ok (fold_left (record recordable) h []) /\
  forall o s i, listed (fold_left (record recordable) h []) o s i <-> standing recordable h o s i.
Proof.
  induction h as [|e h IH] using rev_ind.
  - simpl. split; [split; simpl; [constructor|easy]|]. intros o s i. split; [intros (l & E & _); discriminate|].
    intros (_ & h1 & h2 & E & _). destruct h1; discriminate.
  - rewrite fold_left_app. simpl. destruct IH as [Hok IH].
    assert (Snoc : forall o s i, standing recordable (h ++ [e]) o s i <->
       (recordable o = true /\ e = Capture o s i) \/ (standing recordable h o s i /\ e <> Release o s i /\ e <> NodeGone s)).
    { intros o s i. unfold standing. split.
      - intros (Hr & h1 & h2 & E & N1 & N2). destruct h2 as [|x h2] using rev_ind.
        + apply app_inj_tail in E as [_ ->]. auto.
        + clear IHh2. replace (h1 ++ Capture o s i :: h2 ++ [x]) with ((h1 ++ Capture o s i :: h2) ++ [x]) in E by now rewrite <- app_assoc.
          apply app_inj_tail in E as [-> <-]. right. repeat split; auto.
          * exists h1, h2. repeat split; auto; intros Hin; [apply N1|apply N2]; apply in_or_app; auto.
          * intros ->. apply N1. apply in_or_app. simpl; auto.
          * intros ->. apply N2. apply in_or_app. simpl; auto.
      - intros [[Hr ->]|[(Hr & h1 & h2 & -> & N1 & N2) [M1 M2]]]; split; auto.
        + exists h, []. auto.
        + exists h1, (h2 ++ [e]). rewrite <- app_assoc. simpl. repeat split; auto; intros Hin;
          apply in_app_or in Hin as [|[|[]]]; auto. }
    destruct e as [o s i|o s i|s]; simpl.
    + destruct (capture_ok _ o s i Hok) as [K1 K2]. split; auto. intros o' s' i'. rewrite K2, Snoc, IH. split.
      * intros [(Hr & -> & -> & ->)|Hl]; auto. right. split; [auto|split; discriminate].
      * intros [[Hr E]|[Hl _]]; auto. injection E as -> -> ->. auto.
    + destruct (release_ok _ o s i Hok) as [K1 K2]. split; auto. intros o' s' i'. rewrite K2, Snoc, IH. split.
      * intros [Hn Hl]. right. split; [auto|split; [|discriminate]]. intros E. injection E as -> -> ->. tauto.
      * intros [[_ E]|(Hl & Hn & _)]; [discriminate|]. split; auto. intros (-> & -> & ->). tauto.
    + destruct (node_ok _ s Hok) as [K1 K2]. split; auto. intros o' s' i'. rewrite K2, Snoc, IH. split.
      * intros [Hn Hl]. right. split; [auto|split; [discriminate|]]. intros E. injection E as ->. tauto.
      * intros [[_ E]|(Hl & _ & Hn)]; [discriminate|]. split; [intros ->; tauto|auto].
Qed.

Lemma triple_eq_spec p q : triple_eq p q = true <-> p = q.
Proof.
  destruct p as [p1 p2], q as [q1 q2]. unfold triple_eq. simpl. rewrite andb_true_iff, pair_eq_spec, Nat.eqb_eq.
  split; [intros [-> ->]; auto|intros E; injection E as -> ->; auto].
Qed.

Definition mirrored (w : watch) : Prop := adj_ok (rec w) /\
  forall o s i, listed (rec w) o s i <-> recordable o = true /\ In (s, o, i) (aud w).

Lemma mirror_step w op : mirrored w -> mirrored (sub_step recordable w op).
Proof.
  intros [Hok H]. destruct op as [s v i|s v|s v i|s]; simpl.
  - destruct (capture_ok _ v s i Hok) as [K1 K2]. split; auto. simpl. intros o' s' i'. rewrite K2, H.
    assert (Hin : In (s', o', i') (if existsb (triple_eq (s, v, i)) (aud w) then aud w else (s, v, i) :: aud w) <->
                  (s', o', i') = (s, v, i) \/ In (s', o', i') (aud w)).
    { destruct (existsb (triple_eq (s, v, i)) (aud w)) eqn:E; simpl.
      - apply existsb_exists in E as (x & Hx & E). apply triple_eq_spec in E as <-. split; auto. intros [->|]; auto.
      - split; intros [|]; auto. }
    rewrite Hin. split.
    + intros [(Hr & -> & -> & ->)|[? ?]]; auto.
    + intros [Hr [E|?]]; auto. injection E as -> -> ->. auto.
  - set (mine := filter (fun t => pair_eq (s, v) (fst t)) (aud w)).
    assert (G : forall m a, adj_ok a ->
      let a' := fold_left (fun a (t : nat * nat * nat) => edge_release a v s (snd t)) m a in
      adj_ok a' /\ forall o' s' i', listed a' o' s' i' <-> ~ (o' = v /\ s' = s /\ In i' (map snd m)) /\ listed a o' s' i').
    { induction m as [|t m IHm]; intros a Ha; simpl.
      - split; auto. intros; tauto.
      - destruct (release_ok a v s (snd t) Ha) as [R1 R2]. destruct (IHm _ R1) as [M1 M2]. split; auto.
        intros o' s' i'. rewrite M2, R2. split.
        + intros (N1 & N2 & Hl). split; auto. intros (-> & -> & [<-|Hin]); tauto.
        + intros (N & Hl). repeat split; auto; [intros (-> & -> & Hin); tauto|intros (-> & -> & ->); tauto]. }
    destruct (G mine (rec w) Hok) as [K1 K2]. split; auto. simpl. intros o' s' i'. rewrite K2, H, filter_In, negb_true_iff. simpl.
    assert (Hm : In i' (map snd mine) <-> In (s, v, i') (aud w)).
    { unfold mine. rewrite in_map_iff. split.
      - intros (t & <- & Ht). apply filter_In in Ht as [Ht E]. apply pair_eq_spec in E. destruct t as [p q]. simpl in *. now subst p.
      - intros Hin. exists (s, v, i'). split; auto. apply filter_In. split; auto. now apply pair_eq_spec. }
    rewrite Hm. split.
    + intros (N & Hr & Hin). repeat split; auto. apply not_true_iff_false. intros E. apply pair_eq_spec in E. injection E as -> ->. tauto.
    + intros (Hr & Hin & E). repeat split; auto. intros (-> & -> & _). apply not_true_iff_false in E. now apply E, pair_eq_spec.
  - destruct (release_ok _ v s i Hok) as [K1 K2]. split; auto. simpl. intros o' s' i'. rewrite K2, H, filter_In, negb_true_iff. split.
    + intros (N & Hr & Hin). repeat split; auto. apply not_true_iff_false. intros E. apply triple_eq_spec in E. injection E as -> -> ->. tauto.
    + intros (Hr & Hin & E). repeat split; auto. intros (-> & -> & ->). apply not_true_iff_false in E. now apply E, triple_eq_spec.
  - destruct (node_ok _ s Hok) as [K1 K2]. split; auto. simpl. intros o' s' i'. rewrite K2, H, filter_In, negb_true_iff. simpl.
    rewrite Nat.eqb_neq. tauto.
Qed.
End Recorder.

(** After any history of captures, releases and node destructions the recorder lists exactly the
    standing edges, each once. *)
Lemma C47_edges_lemma : forall recordable h,
  NoDup (edges (fold_left (record recordable) h [])) /\
  forall o s i, In (o, s, i) (edges (fold_left (record recordable) h [])) <-> standing recordable h o s i.
Proof.
  intros recordable h. destruct (history_ok recordable h) as [H1 H2]. split; [now apply edges_NoDup|].
  intros o s i. now rewrite listed_edges.
Qed.

(** After any history of attach, detach and destruction of subjects the recorder lists exactly
    the (observer, subject, index) triples of the audiences whose observer is recordable. *)
Lemma C47_mirrors_audience_lemma : forall recordable ops,
  let w := fold_left (sub_step recordable) ops (mkwatch [] []) in
  NoDup (edges (rec w)) /\
  forall o s i, In (o, s, i) (edges (rec w)) <-> recordable o = true /\ In (s, o, i) (aud w).
Proof.
  intros recordable ops w.
  assert (H : mirrored recordable w).
  { unfold w. induction ops as [|op ops IH] using rev_ind.
    - simpl. split; [split; simpl; [constructor|easy]|]. intros o s i; simpl. split; [intros (l & E & _); discriminate|easy].
    - rewrite fold_left_app. now apply mirror_step. }
  destruct H as [H1 H2]. split; [now apply edges_NoDup|]. intros o s i. now rewrite listed_edges.
Qed.

(** Finding: destroying a node does not remove the edges in which it is the observer; those
    disappear only through edge_release. *)
Lemma C47_observer_gone_refuted_lemma : exists recordable h o s i,
  In (NodeGone o) h /\ In (o, s, i) (edges (fold_left (record recordable) h [])).
Proof. exists (fun _ => true), [Capture 1 2 0; NodeGone 1], 1, 2, 0. simpl. auto. Qed.

Definition key_eqb (p q : nat * nat * nat) : bool := triple_eq p q.

(** The remote recorder: a new subscriber receives one message per edge ever captured or
    released, saying ADD exactly if the last of those events was a capture. *)
Lemma C47_remote_edges_lemma : forall h, exists c,
  adds msg_key key_eqb cache_new (flat_map rpc_messages h) = Ok c /\
  exists ms it, reads (length ms + 1) c None = Ok (map Some ms ++ [None], it) /\
  NoDup (map msg_key ms) /\
  forall o s i b, In ((o, s, i), b) ms <->
    exists h1 h2, h = h1 ++ (if b then Capture o s i else Release o s i) :: h2 /\
      ~ In (Capture o s i) h2 /\ ~ In (Release o s i) h2.
Proof.
  intros h. destruct (C40_fresh_consumer_lemma _ _ msg_key key_eqb triple_eq_spec (flat_map rpc_messages h)) as (c & E & Hr).
  exists c. split; auto.
  destruct (C40_currents_are_latest_lemma _ _ msg_key key_eqb triple_eq_spec (flat_map rpc_messages h)) as (Hl & Hn & _).
  exists (values (flat_map rpc_messages h) (currents msg_key key_eqb (flat_map rpc_messages h))).
  destruct (Hr 1) as [it Hit]. exists it. split.
  - assert (Hlen : forall l, (forall j, In j l -> j < length (flat_map rpc_messages h)) -> length (values (flat_map rpc_messages h) l) = length l).
    { induction l as [|j l IH]; intros Hj; auto.
      destruct (nth_error (flat_map rpc_messages h) j) as [d|] eqn:Ed.
      - rewrite (values_cons _ j l d Ed). simpl. f_equal. apply IH. intros; apply Hj; now right.
      - apply nth_error_None in Ed. specialize (Hj j (or_introl eq_refl)). lia. }
    rewrite Hlen; [exact Hit|]. intros j Hj. apply filter_In in Hj as [Hj _]. apply in_seq in Hj. lia.
  - split; auto. intros o s i b. rewrite Hl. unfold last_with, msg_key at 2. simpl.
    clear. induction h as [|e h IH] using rev_ind.
    + simpl. split; [discriminate|]. intros (h1 & h2 & E & _). destruct h1; discriminate.
    + assert (Snoc : (exists h1 h2, h ++ [e] = h1 ++ (if b then Capture o s i else Release o s i) :: h2 /\
                        ~ In (Capture o s i) h2 /\ ~ In (Release o s i) h2) <->
                     e = (if b then Capture o s i else Release o s i) \/
                     (e <> Capture o s i /\ e <> Release o s i /\
                      exists h1 h2, h = h1 ++ (if b then Capture o s i else Release o s i) :: h2 /\
                        ~ In (Capture o s i) h2 /\ ~ In (Release o s i) h2)).
      { split.
        - intros (h1 & h2 & E & N1 & N2). destruct h2 as [|x h2] using rev_ind.
          + apply app_inj_tail in E as [_ ->]. auto.
          + clear IHh2. rewrite app_comm_cons, app_assoc in E. apply app_inj_tail in E as [-> <-]. right.
            split; [|split; [|exists h1, h2]].
            * intros ->. apply N1, in_or_app. simpl; auto.
            * intros ->. apply N2, in_or_app. simpl; auto.
            * repeat split; auto; intros Hin; [apply N1|apply N2]; apply in_or_app; auto.
        - intros [->|(M1 & M2 & h1 & h2 & -> & N1 & N2)].
          + exists h, []. auto.
          + exists h1, (h2 ++ [e]). rewrite <- app_assoc. simpl. repeat split; auto; intros Hin;
            apply in_app_or in Hin as [|[|[]]]; auto. }
      rewrite Snoc, <- IH. clear Snoc. rewrite flat_map_app, rev_app_distr. simpl. rewrite app_nil_r.
      assert (Hmsg : forall b', (exists t, rpc_messages e = [t] /\ t = ((o, s, i), b')) <-> e = if b' then Capture o s i else Release o s i).
      { intros b'. destruct e as [o' s' i'|o' s' i'|s']; simpl; split.
        - intros (t & E1 & ->). injection E1 as -> -> -> <-. auto.
        - destruct b'; [|discriminate]. intros E. injection E as -> -> ->. eauto.
        - intros (t & E1 & ->). injection E1 as -> -> -> <-. auto.
        - destruct b'; [discriminate|]. intros E. injection E as -> -> ->. eauto.
        - intros (t & E1 & _). discriminate.
        - destruct b'; discriminate. }
      destruct (rpc_messages e) as [|[t b'] [|? ?]] eqn:Em.
      * simpl. rewrite IH. split.
        -- intros Hx. right. split; [|split]; auto; intros ->; discriminate.
        -- intros [->|(_ & _ & Hx)]; auto. destruct b; discriminate.
      * simpl. unfold msg_key at 1. simpl. destruct (key_eqb t (o, s, i)) eqn:Ek.
        -- apply triple_eq_spec in Ek as ->. split.
           ++ intros E1. injection E1 as ->. left. apply Hmsg. eauto.
           ++ intros [->|(M1 & M2 & _)].
              ** destruct b; simpl in Em; congruence.
              ** exfalso. assert (e = if b' then Capture o s i else Release o s i) by (apply Hmsg; eauto).
                 destruct b'; congruence.
        -- split.
           ++ intros Hx. right. split; [|split]; auto; intros ->; simpl in Em; injection Em as <- _;
              apply not_true_iff_false in Ek; apply Ek; now apply triple_eq_spec.
           ++ intros [->|(_ & _ & Hx)]; auto. exfalso. apply not_true_iff_false in Ek. apply Ek, triple_eq_spec.
              destruct b; simpl in Em; injection Em as <- _; auto.
      * destruct e; discriminate.
Qed.

(** Finding: the remote recorder ignores that a node was destroyed and whether the observer is
    recordable: its edges stay announced as ADD. *)
Lemma C47_remote_ignores_destruction_refuted_lemma : exists h,
  ~ standing (fun _ => true) h 1 2 0 /\
  exists c it, adds msg_key key_eqb cache_new (flat_map rpc_messages h) = Ok c /\
  reads 2 c None = Ok ([Some ((1, 2, 0), true); None], it).
Proof.
  exists [Capture 1 2 0; NodeGone 2]. split.
  - intros (_ & h1 & h2 & E & _ & N). destruct h1 as [|x [|y [|z h1]]]; try discriminate.
    simpl in E. injection E as <-. apply N. simpl; auto.
  - eexists. eexists. split; [vm_compute; reflexivity|]. vm_compute; reflexivity.
Qed.

Lemma C47_nonvacuous_lemma :
  edges (fold_left (record (fun o => negb (o =? 9))) [Capture 1 2 0; Capture 9 2 1; Capture 1 2 1; Release 1 2 0; Capture 3 4 0; NodeGone 4] [])
  = [(1, 2, 1)].
Proof. reflexivity. Qed.
