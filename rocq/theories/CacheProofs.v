(** The linked list of the shared cache represents the latest value of every key. *)
From Verif Require Import Common CacheModel CacheSpec.

(** least / greatest number with a property *)
Definition isfirst (P : nat -> bool) (a b : nat) (o : option nat) : Prop :=
  match o with
  | Some j => a <= j < b /\ P j = true /\ forall j', a <= j' < j -> P j' = false
  | None => forall j', a <= j' < b -> P j' = false
  end.
Definition islast (P : nat -> bool) (b : nat) (o : option nat) : Prop :=
  match o with
  | Some j => j < b /\ P j = true /\ forall j', j < j' < b -> P j' = false
  | None => forall j', j' < b -> P j' = false
  end.

Lemma find_first P n : forall a, isfirst P a (a + n) (find P (seq a n)).
Proof.
  induction n as [|n IH]; intros a; simpl.
  - intros j Hj; lia.
  - destruct (P a) eqn:E; simpl.
    + repeat split; auto; lia.
    + specialize (IH (S a)). destruct (find P (seq (S a) n)) as [j|]; simpl in *.
      * destruct IH as (H1 & H2 & H3); repeat split; auto; try lia.
        intros j' Hj'. destruct (Nat.eq_dec j' a) as [->|]; auto. apply H3; lia.
      * intros j' Hj'. destruct (Nat.eq_dec j' a) as [->|]; auto. apply IH; lia.
Qed.

Lemma isfirst_unique P a b o o' : isfirst P a b o -> isfirst P a b o' -> o = o'.
Proof.
  destruct o as [j|], o' as [k|]; simpl; auto.
  - intros (A1 & A2 & A3) (B1 & B2 & B3). f_equal.
    destruct (Nat.lt_trichotomy j k) as [H|[H|H]]; auto.
    + rewrite B3 in A2 by lia; discriminate.
    + rewrite A3 in B2 by lia; discriminate.
  - intros (A1 & A2 & A3) B. rewrite B in A2 by lia; discriminate.
  - intros B (A1 & A2 & A3). rewrite B in A2 by lia; discriminate.
Qed.

Lemma find_last P n : islast P n (find P (rev (seq 0 n))).
Proof.
  induction n as [|n IH]; simpl.
  - intros j Hj; lia.
  - change (islast P (S n) (find P (rev (seq 0 (S n))))). replace (S n) with (n + 1) at 2 by lia.
    rewrite seq_app, rev_app_distr; simpl.
    destruct (P n) eqn:E; simpl.
    + repeat split; auto; lia.
    + destruct (find P (rev (seq 0 n))) as [j|]; simpl in *.
      * destruct IH as (H1 & H2 & H3); repeat split; auto; try lia.
        intros j' Hj'. destruct (Nat.eq_dec j' n) as [->|]; auto. apply H3; lia.
      * intros j' Hj'. destruct (Nat.eq_dec j' n) as [->|]; auto. apply IH; lia.
Qed.

Lemma islast_unique P b o o' : islast P b o -> islast P b o' -> o = o'.
Proof.
  destruct o as [j|], o' as [k|]; simpl; auto.
  - intros (A1 & A2 & A3) (B1 & B2 & B3). f_equal.
    destruct (Nat.lt_trichotomy j k) as [H|[H|H]]; auto.
    + rewrite A3 in B2 by lia; discriminate.
    + rewrite B3 in A2 by lia; discriminate.
  - intros (A1 & A2 & A3) B. rewrite B in A2 by lia; discriminate.
  - intros B (A1 & A2 & A3). rewrite B in A2 by lia; discriminate.
Qed.

Lemma find_first_b P a b : a <= b -> isfirst P a b (find P (seq a (b - a))).
Proof. intros H. replace b with (a + (b - a)) at 1 by lia. apply find_first. Qed.

Lemma find_eq P a b o : a <= b -> isfirst P a b o -> find P (seq a (b - a)) = o.
Proof. intros H. apply isfirst_unique. now apply find_first_b. Qed.

Section Proofs.
Context {K T : Type} (hash : T -> K) (keqb : K -> K -> bool)
        (keqb_ok : forall a b, keqb a b = true <-> a = b).

Notation same_key := (same_key hash keqb).
Notation current := (current hash keqb).
Notation next_current := (next_current hash keqb).
Notation prev_current := (prev_current hash keqb).
Notation oldest := (oldest hash keqb).
Notation forward := (forward hash keqb).
Notation replaced_at := (replaced_at hash keqb).

Lemma same_key_spec ds i j :
  same_key ds i j = true <-> exists x y, nth_error ds i = Some x /\ nth_error ds j = Some y /\ hash x = hash y.
Proof.
  unfold CacheSpec.same_key. split.
  - destruct (nth_error ds i) as [x|], (nth_error ds j) as [y|]; try discriminate.
    intros H; apply keqb_ok in H; eauto.
  - intros (x & y & -> & -> & H). now apply keqb_ok.
Qed.

Lemma current_spec ds i :
  current ds i = true <-> i < length ds /\ forall j, i < j -> same_key ds i j = false.
Proof.
  unfold CacheSpec.current. rewrite andb_true_iff, Nat.ltb_lt, negb_true_iff.
  split; intros [H1 H2]; split; auto.
  - intros j Hj. destruct (same_key ds i j) eqn:E; auto.
    rewrite <- not_true_iff_false in H2. exfalso; apply H2. apply existsb_exists. exists j; split; auto.
    apply in_seq. apply same_key_spec in E as (x & y & _ & Ey & _).
    assert (j < length ds) by (apply nth_error_Some; congruence). lia.
  - apply not_true_iff_false. intros E; apply existsb_exists in E as (j & Hj & E).
    apply in_seq in Hj. rewrite H2 in E by lia; discriminate.
Qed.

Lemma current_lt ds i : current ds i = true -> i < length ds.
Proof. intros H; now apply current_spec in H. Qed.

Lemma current_false ds i : i < length ds -> current ds i = false -> exists j, i < j < length ds /\ same_key ds i j = true.
Proof.
  unfold CacheSpec.current. intros H. apply Nat.ltb_lt in H as ->. simpl.
  intros E. apply negb_false_iff, existsb_exists in E as (j & Hj & E). apply in_seq in Hj. exists j; split; auto; lia.
Qed.

(** there is a unique current value for the key of any value *)
Lemma current_exists ds i x : nth_error ds i = Some x ->
  exists j y, i <= j /\ current ds j = true /\ nth_error ds j = Some y /\ hash y = hash x.
Proof.
  remember (length ds - i) as m eqn:Em. revert i x Em.
  induction m as [m IH] using lt_wf_ind; intros i x Em Hx.
  assert (Hi : i < length ds) by (apply nth_error_Some; congruence).
  destruct (current ds i) eqn:E; [exists i, x; auto|].
  apply current_false in E as (j & Hj & E); auto.
  apply same_key_spec in E as (x' & y & E1 & E2 & E3).
  assert (x' = x) by congruence; subst x'.
  destruct (IH (length ds - j) ltac:(lia) j y eq_refl E2) as (k & z & H1 & H2 & H3 & H4).
  exists k, z; repeat split; auto; try lia; congruence.
Qed.

Lemma current_inj ds i j x y : current ds i = true -> current ds j = true ->
  nth_error ds i = Some x -> nth_error ds j = Some y -> hash x = hash y -> i = j.
Proof.
  intros Hi Hj Ex Ey E.
  apply current_spec in Hi as [_ Hi]. apply current_spec in Hj as [_ Hj].
  destruct (Nat.lt_trichotomy i j) as [H|[H|H]]; auto; exfalso.
  - specialize (Hi j H). apply not_true_iff_false in Hi. apply Hi, same_key_spec; eauto.
  - specialize (Hj i H). apply not_true_iff_false in Hj. apply Hj, same_key_spec; eauto.
Qed.

(** the effect of one addition *)
Lemma current_snoc ds d j x : nth_error ds j = Some x ->
  current (ds ++ [d]) j = current ds j && negb (keqb (hash x) (hash d)).
Proof.
  intros Ex. assert (Hj : j < length ds) by (apply nth_error_Some; congruence).
  apply eq_true_iff_eq. rewrite andb_true_iff, negb_true_iff.
  rewrite !current_spec, app_length; simpl. split.
  - intros [_ H]. split; [split; auto|].
    + intros k Hk. specialize (H k Hk). apply not_true_iff_false in H. apply not_true_iff_false. intros E; apply H.
      apply same_key_spec in E as (a & b & E1 & E2 & E3). apply same_key_spec. exists a, b.
      rewrite !nth_error_app1; auto; apply nth_error_Some; congruence.
    + specialize (H (length ds) Hj). apply not_true_iff_false in H. apply not_true_iff_false. intros E; apply H.
      apply keqb_ok in E. apply same_key_spec. exists x, d.
      rewrite nth_error_app1, nth_error_app2, Nat.sub_diag; auto.
  - intros [[_ H1] H2]. split; [lia|]. intros k Hk. apply not_true_iff_false; intros E.
    apply same_key_spec in E as (a & b & E1 & E2 & E3).
    rewrite nth_error_app1 in E1 by auto.
    destruct (Nat.lt_ge_cases k (length ds)) as [Hl|Hg].
    + rewrite nth_error_app1 in E2 by auto.
      specialize (H1 k Hk). apply not_true_iff_false in H1. apply H1, same_key_spec; eauto.
    + rewrite nth_error_app2 in E2 by auto. destruct (k - length ds) as [|[|?]]; simpl in E2; try discriminate.
      apply not_true_iff_false in H2. apply H2, keqb_ok. congruence.
Qed.

Lemma current_new ds d : current (ds ++ [d]) (length ds) = true.
Proof.
  apply current_spec. rewrite app_length; simpl. split; [lia|]. intros j Hj.
  apply not_true_iff_false; intros E. apply same_key_spec in E as (a & b & _ & E & _).
  assert (j < length (ds ++ [d])) by (apply nth_error_Some; congruence). rewrite app_length in H; simpl in H; lia.
Qed.

Lemma current_stays_false ds d j : j < length ds -> current ds j = false -> current (ds ++ [d]) j = false.
Proof.
  intros Hj H. destruct (nth_error ds j) as [x|] eqn:E; [|apply nth_error_None in E; lia].
  rewrite (current_snoc ds d j x E), H; auto.
Qed.

Lemma firsts ds :
  (forall i, isfirst (current ds) (S i) (length ds) (next_current ds i)) /\
  (forall i, islast (current ds) i (prev_current ds i)) /\
  isfirst (current ds) 0 (length ds) (oldest ds).
Proof.
  repeat split.
  - intros i. unfold CacheSpec.next_current.
    destruct (Nat.le_gt_cases (S i) (length ds)).
    + now apply find_first_b.
    + replace (length ds - S i) with 0 by lia. simpl; intros; lia.
  - intros i. apply find_last.
  - unfold CacheSpec.oldest. apply find_first.
Qed.

Lemma next_is ds i o : isfirst (current ds) (S i) (length ds) o -> next_current ds i = o.
Proof. apply isfirst_unique, (firsts ds). Qed.
Lemma prev_is ds i o : islast (current ds) i o -> prev_current ds i = o.
Proof. apply islast_unique, (firsts ds). Qed.
Lemma oldest_is ds o : isfirst (current ds) 0 (length ds) o -> oldest ds = o.
Proof. apply isfirst_unique, (firsts ds). Qed.

Lemma replaced_spec ds i : isfirst (same_key ds i) (S i) (length ds) (replaced_at ds i).
Proof.
  unfold CacheSpec.replaced_at. destruct (Nat.le_gt_cases (S i) (length ds)).
  - now apply find_first_b.
  - replace (length ds - S i) with 0 by lia. simpl; intros; lia.
Qed.

Lemma same_key_app ds d i j : i < length ds -> j < length ds -> same_key (ds ++ [d]) i j = same_key ds i j.
Proof. intros Hi Hj. unfold CacheSpec.same_key. now rewrite !nth_error_app1. Qed.

Lemma replaced_snoc ds d i : i < length ds -> current ds i = false -> replaced_at (ds ++ [d]) i = replaced_at ds i.
Proof.
  intros Hi Hc. apply (isfirst_unique (same_key (ds ++ [d]) i) (S i) (length (ds ++ [d]))); [apply replaced_spec|].
  pose proof (replaced_spec ds i) as H. destruct (replaced_at ds i) as [t|]; simpl in *.
  - destruct H as (H1 & H2 & H3). rewrite app_length; simpl. repeat split; try lia.
    + now rewrite same_key_app by lia.
    + intros j Hj. rewrite same_key_app by lia. auto.
  - apply current_false in Hc as (j & Hj & E); auto. rewrite H in E by lia; discriminate.
Qed.

Lemma forward_snoc ds d i : i < length ds -> current ds i = false -> forward (ds ++ [d]) i = forward ds i.
Proof.
  intros Hi Hc. unfold CacheSpec.forward. rewrite replaced_snoc by auto.
  pose proof (replaced_spec ds i) as H. destruct (replaced_at ds i) as [t|]; auto.
  destruct H as (H1 & _). rewrite firstn_app. replace (t - length ds) with 0 by lia. simpl.
  now rewrite app_nil_r.
Qed.

Lemma forward_now ds d i x : nth_error ds i = Some x -> current ds i = true -> hash x = hash d ->
  forward (ds ++ [d]) i = match next_current ds i with Some j => Some j | None => prev_current ds i end.
Proof.
  intros Ex Hc E. assert (Hi : i < length ds) by (apply nth_error_Some; congruence).
  unfold CacheSpec.forward.
  assert (Hr : replaced_at (ds ++ [d]) i = Some (length ds)).
  { apply (isfirst_unique (same_key (ds ++ [d]) i) (S i) (length (ds ++ [d]))); [apply replaced_spec|].
    simpl. rewrite app_length; simpl. repeat split; try lia.
    - apply same_key_spec. exists x, d. rewrite nth_error_app1, nth_error_app2, Nat.sub_diag by lia. auto.
    - intros j Hj. rewrite same_key_app by lia. apply current_spec in Hc. apply Hc; lia. }
  rewrite Hr. rewrite firstn_app, firstn_all, Nat.sub_diag; simpl. now rewrite app_nil_r.
Qed.

(** what the cache holds after the values [ds] were added *)
Definition node_of (ds : list T) (i : nat) (d : T) : cnode :=
  if current ds i then mknode (next_current ds i) (prev_current ds i) d
  else mknode (forward ds i) None d.
Definition newest (n : nat) : option nat := match n with 0 => None | S m => Some m end.
Definition keyed (ds : list T) (k : K) (i : nat) : bool :=
  current ds i && match nth_error ds i with Some x => keqb (hash x) k | None => false end.

Record Rep (ds : list T) (c : cache) : Prop := {
  rep_len : length (nodes c) = length ds;
  rep_node : forall i d, nth_error ds i = Some d -> nth_error (nodes c) i = Some (node_of ds i d);
  rep_head : chead c = oldest ds;
  rep_tail : ctail c = newest (length ds);
  rep_map : forall k, ufind keqb (umap c) k = find (keyed ds k) (seq 0 (length ds)) }.

Lemma Rep_new : Rep [] cache_new.
Proof. constructor; simpl; auto. intros [|i] d; discriminate. Qed.

Lemma keyed_snoc ds d k i : keyed (ds ++ [d]) k i =
  if i =? length ds then keqb (hash d) k else keyed ds k i && negb (keqb k (hash d)).
Proof.
  unfold keyed. destruct (Nat.eqb_spec i (length ds)) as [->|Hne].
  - rewrite current_new, nth_error_app2, Nat.sub_diag by lia. auto.
  - destruct (nth_error ds i) as [x|] eqn:E.
    + rewrite (current_snoc ds d i x E).
      rewrite nth_error_app1, E by (apply nth_error_Some; congruence).
      destruct (current ds i); simpl; auto.
      destruct (keqb (hash x) k) eqn:E1; rewrite ?andb_true_r, ?andb_false_r; auto.
      apply keqb_ok in E1 as ->. auto.
    + assert (nth_error (ds ++ [d]) i = None) as ->.
      { apply nth_error_None. apply nth_error_None in E. rewrite app_length; simpl; lia. }
      now rewrite !andb_false_r.
Qed.

Lemma rep_map_step ds d (u : list (K * nat)) :
  (forall k, ufind keqb u k = find (keyed ds k) (seq 0 (length ds))) ->
  forall k, ufind keqb ((hash d, length ds) :: u) k = find (keyed (ds ++ [d]) k) (seq 0 (length (ds ++ [d]))).
Proof.
  intros H k. simpl. rewrite app_length, Nat.add_1_r; simpl length.
  symmetry. apply (isfirst_unique (keyed (ds ++ [d]) k) 0 (S (length ds))); [apply find_first|].
  destruct (keqb (hash d) k) eqn:E.
  - simpl. rewrite keyed_snoc, Nat.eqb_refl. repeat split; auto; try lia.
    intros j Hj. rewrite keyed_snoc. destruct (Nat.eqb_spec j (length ds)); [lia|].
    apply keqb_ok in E. subst k. assert (keqb (hash d) (hash d) = true) as -> by now apply keqb_ok.
    now rewrite andb_false_r.
  - rewrite H. pose proof (find_first (keyed ds k) (length ds) 0) as F. simpl in F.
    assert (Ek : keqb k (hash d) = false).
    { apply not_true_iff_false. intros E'. apply keqb_ok in E'. subst k.
      assert (keqb (hash d) (hash d) = true) by now apply keqb_ok. congruence. }
    destruct (find (keyed ds k) (seq 0 (length ds))) as [i|]; simpl in *.
    + destruct F as (F1 & F2 & F3). repeat split; try lia.
      * rewrite keyed_snoc. destruct (Nat.eqb_spec i (length ds)); [lia|]. now rewrite F2, Ek.
      * intros j Hj. rewrite keyed_snoc. destruct (Nat.eqb_spec j (length ds)); [lia|]. rewrite F3; auto.
    + intros j Hj. rewrite keyed_snoc. destruct (Nat.eqb_spec j (length ds)); auto. rewrite F; auto; lia.
Qed.

(** the numbers current after adding [d] *)
Lemma current_snoc_none ds d j : (forall i, keyed ds (hash d) i = false) -> j < length ds ->
  current (ds ++ [d]) j = current ds j.
Proof.
  intros H Hj. destruct (nth_error ds j) as [x|] eqn:E; [|apply nth_error_None in E; lia].
  rewrite (current_snoc ds d j x E). specialize (H j). unfold keyed in H. rewrite E in H.
  destruct (current ds j); simpl in *; auto. now rewrite H.
Qed.

Lemma current_snoc_some ds d i j : keyed ds (hash d) i = true -> j < length ds ->
  current (ds ++ [d]) j = current ds j && negb (j =? i).
Proof.
  intros H Hj. destruct (nth_error ds j) as [x|] eqn:E; [|apply nth_error_None in E; lia].
  rewrite (current_snoc ds d j x E). unfold keyed in H.
  apply andb_true_iff in H as [H1 H2]. destruct (nth_error ds i) as [y|] eqn:Ey; [|discriminate].
  apply keqb_ok in H2. destruct (current ds j) eqn:Ec; simpl; auto. f_equal.
  apply eq_true_iff_eq. rewrite keqb_ok, Nat.eqb_eq. split.
  - intros E'. apply (current_inj ds j i x y); auto; congruence.
  - intros ->. congruence.
Qed.

Lemma oldest_some ds : 0 < length ds -> exists i, oldest ds = Some i /\ current ds i = true /\ i < length ds.
Proof.
  intros H. pose proof (proj2 (proj2 (firsts ds))) as F. destruct (oldest ds) as [i|]; simpl in *.
  - exists i; repeat split; auto; apply F.
  - assert (E : exists m, length ds = S m) by (destruct (length ds); [lia|eauto]). destruct E as [m E].
    assert (current ds m = true). { apply current_spec. split; [lia|]. intros j Hj.
      apply not_true_iff_false; intros Es. apply same_key_spec in Es as (a & b & _ & Es & _).
      assert (j < length ds) by (apply nth_error_Some; congruence). lia. }
    rewrite F in H0 by lia; discriminate.
Qed.

Lemma newest_current ds m : length ds = S m -> current ds m = true.
Proof.
  intros E. apply current_spec. split; [lia|]. intros j Hj.
  apply not_true_iff_false; intros Es. apply same_key_spec in Es as (a & b & _ & Es & _).
  assert (j < length ds) by (apply nth_error_Some; congruence). lia.
Qed.

(** successor, predecessor and first element after one addition that replaces number [i]
    ([i = length ds]: nothing replaced) *)
Section Step.
Context (ds : list T) (d : T) (i : nat)
        (Hc : forall j, j < length ds -> current (ds ++ [d]) j = current ds j && negb (j =? i)).

Let n := length ds.

Lemma len_snoc : length (ds ++ [d]) = S n.
Proof. rewrite app_length; simpl; unfold n; lia. Qed.

Lemma next_snoc j : j < n ->
  next_current (ds ++ [d]) j =
  match next_current ds j with
  | None => Some n
  | Some x => if x =? i then match next_current ds i with Some y => Some y | None => Some n end else Some x
  end.
Proof.
  intros Hj. apply next_is. rewrite len_snoc.
  pose proof (current_new ds d) as Hn. fold n in Hn.
  pose proof (proj1 (firsts ds) j) as F. pose proof (proj1 (firsts ds) i) as G. fold n in F, G.
  destruct (next_current ds j) as [x|]; simpl in F.
  - destruct F as (F1 & F2 & F3). destruct (Nat.eqb_spec x i) as [->|Hx].
    + destruct (next_current ds i) as [y|]; simpl in *.
      * destruct G as (G1 & G2 & G3). repeat split; try lia.
        -- rewrite Hc by lia. rewrite G2. destruct (Nat.eqb_spec y i); [lia|auto].
        -- intros k Hk. rewrite Hc by lia. destruct (Nat.eqb_spec k i); [now rewrite andb_false_r|].
           rewrite andb_true_r. destruct (Nat.lt_ge_cases k i); [apply F3; lia|apply G3; lia].
      * repeat split; try lia; auto.
        intros k Hk. rewrite Hc by lia. destruct (Nat.eqb_spec k i); [now rewrite andb_false_r|].
        rewrite andb_true_r. destruct (Nat.lt_ge_cases k i); [apply F3; lia|apply G; lia].
    + simpl. repeat split; try lia.
      * rewrite Hc by lia. rewrite F2. destruct (Nat.eqb_spec x i); [lia|auto].
      * intros k Hk. rewrite Hc by lia. rewrite F3; auto.
  - simpl. repeat split; try lia; auto. intros k Hk. rewrite Hc by lia. rewrite F; auto; lia.
Qed.

Lemma prev_snoc j : j <= n ->
  prev_current (ds ++ [d]) j =
  match prev_current ds j with
  | None => None
  | Some x => if x =? i then prev_current ds i else Some x
  end.
Proof.
  intros Hj. apply prev_is.
  pose proof (proj1 (proj2 (firsts ds)) j) as F. pose proof (proj1 (proj2 (firsts ds)) i) as G.
  destruct (prev_current ds j) as [x|]; simpl in F.
  - destruct F as (F1 & F2 & F3). destruct (Nat.eqb_spec x i) as [->|Hx].
    + destruct (prev_current ds i) as [y|]; simpl in *.
      * destruct G as (G1 & G2 & G3). repeat split; try lia.
        -- rewrite Hc by (fold n; lia). rewrite G2. destruct (Nat.eqb_spec y i); [lia|auto].
        -- intros k Hk. rewrite Hc by (fold n; lia). destruct (Nat.eqb_spec k i); [now rewrite andb_false_r|].
           rewrite andb_true_r. destruct (Nat.lt_ge_cases k i); [apply G3; lia|apply F3; lia].
      * intros k Hk. rewrite Hc by (fold n; lia). destruct (Nat.eqb_spec k i); [now rewrite andb_false_r|].
        rewrite andb_true_r. destruct (Nat.lt_ge_cases k i); [apply G; lia|apply F3; lia].
    + simpl. repeat split; try lia.
      * rewrite Hc by (fold n; lia). rewrite F2. destruct (Nat.eqb_spec x i); [lia|auto].
      * intros k Hk. rewrite Hc by (fold n; lia). rewrite F3; auto.
  - simpl. intros k Hk. rewrite Hc by (fold n; lia). rewrite F; auto; lia.
Qed.

Lemma oldest_snoc :
  oldest (ds ++ [d]) =
  match oldest ds with
  | None => Some n
  | Some x => if x =? i then match next_current ds i with Some y => Some y | None => Some n end else Some x
  end.
Proof.
  apply oldest_is. rewrite len_snoc.
  pose proof (current_new ds d) as Hn. fold n in Hn.
  pose proof (proj2 (proj2 (firsts ds))) as F. pose proof (proj1 (firsts ds) i) as G. fold n in F, G.
  destruct (oldest ds) as [x|]; simpl in F.
  - destruct F as (F1 & F2 & F3). destruct (Nat.eqb_spec x i) as [->|Hx].
    + destruct (next_current ds i) as [y|]; simpl in *.
      * destruct G as (G1 & G2 & G3). repeat split; try lia.
        -- rewrite Hc by lia. rewrite G2. destruct (Nat.eqb_spec y i); [lia|auto].
        -- intros k Hk. rewrite Hc by lia. destruct (Nat.eqb_spec k i); [now rewrite andb_false_r|].
           rewrite andb_true_r. destruct (Nat.lt_ge_cases k i); [apply F3; lia|apply G3; lia].
      * repeat split; try lia; auto.
        intros k Hk. rewrite Hc by lia. destruct (Nat.eqb_spec k i); [now rewrite andb_false_r|].
        rewrite andb_true_r. destruct (Nat.lt_ge_cases k i); [apply F3; lia|apply G; lia].
    + simpl. repeat split; try lia.
      * rewrite Hc by lia. rewrite F2. destruct (Nat.eqb_spec x i); [lia|auto].
      * intros k Hk. rewrite Hc by lia. rewrite F3; auto.
  - simpl. repeat split; try lia; auto. intros k Hk. rewrite Hc by lia. rewrite F; auto; lia.
Qed.
End Step.

Lemma next_prev ds a b : current ds a = true -> next_current ds a = Some b -> prev_current ds b = Some a.
Proof.
  intros Ha E. pose proof (proj1 (firsts ds) a) as F. rewrite E in F. destruct F as (F1 & F2 & F3).
  apply prev_is. simpl. repeat split; auto; try lia; try (intros; apply F3; lia).
Qed.
Lemma prev_next ds a b : b < length ds -> current ds b = true -> prev_current ds b = Some a -> next_current ds a = Some b.
Proof.
  intros Hb Hcb E. pose proof (proj1 (proj2 (firsts ds)) b) as F. rewrite E in F. destruct F as (F1 & F2 & F3).
  apply next_is. simpl. repeat split; auto; try lia; try (intros; apply F3; lia).
Qed.
Lemma next_none ds a m : length ds = S m -> current ds a = true -> next_current ds a = None -> a = m.
Proof.
  intros E Ha H. pose proof (proj1 (firsts ds) a) as F. rewrite H in F. simpl in F.
  pose proof (current_lt ds a Ha). destruct (Nat.eq_dec a m); auto.
  pose proof (newest_current ds m E). rewrite F in H1 by lia; discriminate.
Qed.
Lemma next_newest ds m : length ds = S m -> next_current ds m = None.
Proof. intros E. apply next_is. rewrite E. simpl; intros; lia. Qed.
Lemma prev_new ds m : length ds = S m -> prev_current ds (length ds) = Some m.
Proof. intros E. apply prev_is. simpl. repeat split; try lia. now apply newest_current. Qed.
Lemma oldest_prev ds a : oldest ds = Some a -> prev_current ds a = None.
Proof.
  intros E. pose proof (proj2 (proj2 (firsts ds))) as F. rewrite E in F. destruct F as (F1 & F2 & F3).
  apply prev_is. simpl. intros; apply F3; lia.
Qed.
Lemma prev_oldest ds a : current ds a = true -> prev_current ds a = None -> oldest ds = Some a.
Proof.
  intros Ha E. pose proof (proj1 (proj2 (firsts ds)) a) as F. rewrite E in F.
  apply oldest_is. simpl. repeat split; auto; try lia; try (now apply current_lt); try (intros; apply F; lia).
Qed.

Lemma nth_nodes_lt ds c j : Rep ds c -> j < length ds -> exists d, nth_error ds j = Some d /\ nth_error (nodes c) j = Some (node_of ds j d).
Proof.
  intros R Hj. destruct (nth_error ds j) as [d|] eqn:E; [|apply nth_error_None in E; lia].
  exists d; split; auto. now apply rep_node.
Qed.

(** the heap after unlink *)
Lemma unlink_ok ds c i m (R : Rep ds c) (Hi : current ds i = true) (E : length ds = S m) :
  exists c', unlink c i = Ok c' /\ length (nodes c') = length ds /\ umap c' = umap c /\
    chead c' = (if ptr_eqb (oldest ds) (Some i) then next_current ds i else oldest ds) /\
    ctail c' = (if m =? i then prev_current ds i else Some m) /\
    forall j d, nth_error ds j = Some d -> nth_error (nodes c') j = Some
      (if j =? i then mknode (if m =? i then prev_current ds i else next_current ds i) None d
       else mknode (if ptr_eqb (prev_current ds i) (Some j) then next_current ds i else nxt (node_of ds j d))
                   (if ptr_eqb (next_current ds i) (Some j) then prev_current ds i else prv (node_of ds j d)) d).
Proof.
  pose proof (current_lt ds i Hi) as Hil.
  destruct (nth_nodes_lt ds c i R Hil) as (di & Edi & Eni).
  assert (Hl : forall o, nth_error (nodes c) o <> None <-> o < length ds).
  { intros o. rewrite nth_error_Some. now rewrite (rep_len _ _ R). }
  assert (Hh : chead c = oldest ds) by apply R.
  assert (Ht : ctail c = Some m). { rewrite (rep_tail _ _ R), E. reflexivity. }
  unfold unlink, rd. rewrite Eni. simpl bind.
  rewrite Hh, Ht, E.
  unfold node_of in *. rewrite Hi in *. simpl nxt. simpl prv.
  pose proof (proj1 (firsts ds) i) as Fx. pose proof (proj1 (proj2 (firsts ds)) i) as Fp.
  pose proof (next_none ds i m E Hi) as Hnn. pose proof (next_newest ds m E) as Hnm.
  assert (Htl : ptr_eqb (Some m) (Some i) = (m =? i)) by reflexivity. rewrite Htl.
  destruct (prev_current ds i) as [p|] eqn:Ep, (next_current ds i) as [x|] eqn:Ex; simpl in Fx, Fp.
  - destruct Fx as (Fx1 & Fx2 & Fx3). destruct Fp as (Fp1 & Fp2 & Fp3).
    assert (Hmi : (m =? i) = false). { apply Nat.eqb_neq. intros ->. congruence. }
    rewrite Hmi.
    destruct (nth_nodes_lt ds c p R ltac:(lia)) as (dp & Edp & Enp).
    destruct (nth_nodes_lt ds c x R ltac:(lia)) as (dx & Edx & Enx).
    destruct (ptr_eqb (oldest ds) (Some i)) eqn:Eo;
    unfold set_nxt, set_prv, rd; cbn [nodes chead ctail umap bind];
    rewrite Enp; cbn [nodes chead ctail umap bind];
    rewrite nth_error_set_nth_neq by lia; rewrite Enx; cbn [nodes chead ctail umap bind];
    rewrite !nth_error_set_nth_neq by lia; rewrite Eni; cbn [nodes chead ctail umap bind];
    (eexists; split; [reflexivity|]); cbn [nodes chead ctail umap]; rewrite !length_set_nth, (rep_len _ _ R);
    (repeat split; auto);
    intros j d Ed; assert (Hj : j < length ds) by (apply nth_error_Some; congruence);
    rewrite !nth_error_set_nth, !length_set_nth, (rep_len _ _ R);
    (assert (i <? length ds = true) as -> by now apply Nat.ltb_lt);
    (assert (x <? length ds = true) as -> by (apply Nat.ltb_lt; lia));
    (assert (p <? length ds = true) as -> by (apply Nat.ltb_lt; lia));
    rewrite !andb_true_r, (Nat.eqb_sym i j), (Nat.eqb_sym x j), (Nat.eqb_sym p j); cbn [ptr_eqb];
    rewrite (Nat.eqb_sym x j), (Nat.eqb_sym p j);
    unfold node_of in *; rewrite ?Fp2, ?Fx2 in *;
    (destruct (Nat.eqb_spec j i) as [->|]; [cbn; congruence|]);
    (destruct (Nat.eqb_spec j x) as [->|];
      [rewrite Fx2; destruct (Nat.eqb_spec x p); [lia|]; cbn; repeat f_equal; congruence|]);
    (destruct (Nat.eqb_spec j p) as [->|]; [rewrite Fp2; cbn; repeat f_equal; congruence|]);
    rewrite (rep_node _ _ R j d Ed); unfold node_of; destruct (current ds j); reflexivity.
  - destruct Fp as (Fp1 & Fp2 & Fp3). specialize (Hnn eq_refl). subst i.
    rewrite Nat.eqb_refl.
    destruct (nth_nodes_lt ds c p R ltac:(lia)) as (dp & Edp & Enp).
    destruct (ptr_eqb (oldest ds) (Some m)) eqn:Eo;
    unfold set_nxt, set_prv, rd; cbn [nodes chead ctail umap bind];
    rewrite Enp; cbn [nodes chead ctail umap bind];
    rewrite nth_error_set_nth_neq by lia; rewrite Eni; cbn [nodes chead ctail umap bind];
    (rewrite nth_error_set_nth_eq by (rewrite length_set_nth, (rep_len _ _ R); lia)); cbn [nodes chead ctail umap bind nxt prv dat];
    (eexists; split; [reflexivity|]); cbn [nodes chead ctail umap]; rewrite !length_set_nth, (rep_len _ _ R);
    (repeat split; auto);
    intros j d Ed; assert (Hj : j < length ds) by (apply nth_error_Some; congruence);
    rewrite !nth_error_set_nth, !length_set_nth, (rep_len _ _ R);
    (assert (m <? length ds = true) as -> by now apply Nat.ltb_lt);
    (assert (p <? length ds = true) as -> by (apply Nat.ltb_lt; lia));
    rewrite !andb_true_r, (Nat.eqb_sym m j), (Nat.eqb_sym p j); cbn [ptr_eqb];
    rewrite (Nat.eqb_sym p j);
    unfold node_of in *; rewrite ?Fp2 in *;
    (destruct (Nat.eqb_spec j m) as [->|]; [cbn; congruence|]);
    (destruct (Nat.eqb_spec j p) as [->|]; [rewrite Fp2; cbn; repeat f_equal; congruence|]);
    rewrite (rep_node _ _ R j d Ed); unfold node_of; destruct (current ds j); reflexivity.
  - destruct Fx as (Fx1 & Fx2 & Fx3).
    assert (Hmi : (m =? i) = false). { apply Nat.eqb_neq. intros ->. congruence. }
    rewrite Hmi.
    destruct (nth_nodes_lt ds c x R ltac:(lia)) as (dx & Edx & Enx).
    destruct (ptr_eqb (oldest ds) (Some i)) eqn:Eo;
    unfold set_nxt, set_prv, rd; cbn [nodes chead ctail umap bind];
    rewrite Enx; cbn [nodes chead ctail umap bind];
    rewrite !nth_error_set_nth_neq by lia; rewrite Eni; cbn [nodes chead ctail umap bind];
    (eexists; split; [reflexivity|]); cbn [nodes chead ctail umap]; rewrite !length_set_nth, (rep_len _ _ R);
    (repeat split; auto);
    intros j d Ed; assert (Hj : j < length ds) by (apply nth_error_Some; congruence);
    rewrite !nth_error_set_nth, !length_set_nth, (rep_len _ _ R);
    (assert (i <? length ds = true) as -> by now apply Nat.ltb_lt);
    (assert (x <? length ds = true) as -> by (apply Nat.ltb_lt; lia));
    rewrite !andb_true_r, (Nat.eqb_sym i j), (Nat.eqb_sym x j); cbn [ptr_eqb];
    rewrite (Nat.eqb_sym x j);
    unfold node_of in *; rewrite ?Fx2 in *;
    (destruct (Nat.eqb_spec j i) as [->|]; [cbn; congruence|]);
    (destruct (Nat.eqb_spec j x) as [->|];
      [rewrite Fx2; cbn; repeat f_equal; congruence|]);
    rewrite (rep_node _ _ R j d Ed); unfold node_of; destruct (current ds j); reflexivity.
  - specialize (Hnn eq_refl). subst i.
    rewrite Nat.eqb_refl.
    destruct (ptr_eqb (oldest ds) (Some m)) eqn:Eo;
    unfold set_nxt, set_prv, rd; cbn [nodes chead ctail umap bind];
    rewrite Eni; cbn [nodes chead ctail umap bind];
    (rewrite nth_error_set_nth_eq by (rewrite ?length_set_nth, (rep_len _ _ R); lia)); cbn [nodes chead ctail umap bind nxt prv dat];
    (eexists; split; [reflexivity|]); cbn [nodes chead ctail umap]; rewrite !length_set_nth, (rep_len _ _ R);
    (repeat split; auto);
    intros j d Ed; assert (Hj : j < length ds) by (apply nth_error_Some; congruence);
    rewrite !nth_error_set_nth, !length_set_nth, (rep_len _ _ R);
    (assert (m <? length ds = true) as -> by now apply Nat.ltb_lt);
    rewrite !andb_true_r, (Nat.eqb_sym m j); cbn [ptr_eqb];
    (destruct (Nat.eqb_spec j m) as [->|]; [cbn; congruence|]);
    rewrite (rep_node _ _ R j d Ed); unfold node_of; destruct (current ds j); reflexivity.
Qed.

Lemma keyed_none ds k : find (keyed ds k) (seq 0 (length ds)) = None -> forall i, keyed ds k i = false.
Proof.
  intros H i. pose proof (find_first (keyed ds k) (length ds) 0) as F. rewrite H in F. simpl in F.
  destruct (Nat.lt_ge_cases i (length ds)); [apply F; lia|].
  unfold keyed. destruct (nth_error ds i) eqn:E; [|apply andb_false_r].
  assert (i < length ds) by (apply nth_error_Some; congruence); lia.
Qed.

Lemma keyed_some ds k i : find (keyed ds k) (seq 0 (length ds)) = Some i -> keyed ds k i = true /\ i < length ds.
Proof.
  intros H. pose proof (find_first (keyed ds k) (length ds) 0) as F. rewrite H in F. simpl in F.
  split; [apply F|lia].
Qed.

Lemma nth_error_snoc {A} (l : list A) a j : nth_error (l ++ [a]) j = if j =? length l then Some a else nth_error l j.
Proof.
  destruct (Nat.eqb_spec j (length l)) as [->|H].
  - rewrite nth_error_app2, Nat.sub_diag; auto.
  - destruct (Nat.lt_ge_cases j (length l)); [now apply nth_error_app1|].
    rewrite nth_error_app2 by lia.
    rewrite (proj2 (nth_error_None l j)) by lia. apply nth_error_None. simpl; lia.
Qed.

Lemma add_ok ds c d : Rep ds c -> exists c', add_latest hash keqb c d = Ok c' /\ Rep (ds ++ [d]) c'.
Proof.
  intros R. unfold add_latest. rewrite (rep_map _ _ R).
  destruct (find (keyed ds (hash d)) (seq 0 (length ds))) as [i|] eqn:Ef.
  - apply keyed_some in Ef as [Hk Hi]. set (n := length ds) in *.
    assert (Em : exists m, n = S m) by (destruct n; [lia|eauto]). destruct Em as [m Em].
    assert (Hci : current ds i = true) by (unfold keyed in Hk; now apply andb_true_iff in Hk).
    assert (Hkey : exists x, nth_error ds i = Some x /\ hash x = hash d).
    { unfold keyed in Hk. apply andb_true_iff in Hk as [_ Hk]. destruct (nth_error ds i) as [x|]; [|discriminate].
      apply keqb_ok in Hk. eauto. }
    destruct Hkey as (xi & Exi & Ekey).
    destruct (unlink_ok ds c i m R Hci Em) as (u & -> & Ul & Uu & Uh & Ut & Un). simpl bind.
    pose proof (current_snoc_some ds d i) as Hc. specialize (fun j => Hc j Hk).
    pose proof (next_snoc ds d i Hc) as Hnx. pose proof (prev_snoc ds d i Hc) as Hpv.
    pose proof (oldest_snoc ds d i Hc) as Hol. fold n in Hnx, Hpv, Hol.
    pose proof (proj1 (firsts ds) i) as Fx. pose proof (proj1 (proj2 (firsts ds)) i) as Fp. fold n in Fx.
    assert (Htail : ctail u = prev_current (ds ++ [d]) n).
    { rewrite Hpv by lia. unfold n. rewrite (prev_new ds m Em). rewrite Ut. reflexivity. }
    assert (Hnil : ctail u = None -> next_current ds i = None /\ prev_current ds i = None /\ i = m).
    { rewrite Ut. destruct (Nat.eqb_spec m i); [|discriminate]. subst i. intros ->. split; auto. now apply next_newest. }
    assert (Hhead : oldest (ds ++ [d]) = match chead u with Some h => Some h | None => Some n end).
    { rewrite Hol, Uh. destruct (oldest_some ds ltac:(fold n; lia)) as (o & -> & _). cbn [ptr_eqb].
      destruct (o =? i); auto. }
    assert (Hhd : match ctail u with Some _ => chead u | None => Some n end = oldest (ds ++ [d])).
    { rewrite Hhead. destruct (ctail u) as [t|] eqn:Et.
      - assert (chead u <> None); [|now destruct (chead u)].
        rewrite Uh. destruct (oldest_some ds ltac:(fold n; lia)) as (o & Eo & _). rewrite Eo. cbn [ptr_eqb].
        destruct (Nat.eqb_spec o i) as [->|]; [|discriminate]. intros Hx.
        pose proof (next_none ds i m Em Hci Hx) as ->. rewrite Nat.eqb_refl in Ut.
        rewrite (oldest_prev ds m Eo) in Ut. discriminate.
      - destruct (Hnil eq_refl) as (H1 & H2 & H3). rewrite Uh.
        destruct (oldest ds) as [o|] eqn:Eo.
        + cbn [ptr_eqb]. destruct (Nat.eqb_spec o i) as [->|Ho]; [now rewrite H1|].
          rewrite (prev_oldest ds i Hci H2) in Eo. congruence.
        + reflexivity. }
    assert (Hnode : forall j dj, nth_error ds j = Some dj ->
       node_of (ds ++ [d]) j dj =
       match nth_error (nodes u) j with
       | Some nd => if ptr_eqb (ctail u) (Some j) then mknode (Some n) (prv nd) (dat nd) else nd
       | None => mknode None None dj
       end).
    { intros j dj Ej. rewrite (Un j dj Ej). assert (Hj : j < n) by (apply nth_error_Some; congruence).
      unfold node_of. rewrite Hc by auto. rewrite Ut.
      destruct (Nat.eqb_spec j i) as [->|Hji].
      - (* the replaced node *)
        rewrite andb_false_r. rewrite (forward_now ds d i xi Exi Hci Ekey).
        destruct (Nat.eqb_spec m i) as [->|Hmi].
        + rewrite (next_newest ds i Em). cbn [prv dat].
          destruct (prev_current ds i) as [p|]; cbn [ptr_eqb]; auto.
          simpl in Fp. destruct (Nat.eqb_spec p i); [lia|auto].
        + destruct (next_current ds i) as [x|] eqn:Ex; [|exfalso; apply Hmi; symmetry; now apply (next_none ds i m)].
          cbn [ptr_eqb prv dat]. destruct (Nat.eqb_spec m i); [lia|auto].
      - rewrite andb_true_r. destruct (current ds j) eqn:Hcj; cbn [nxt prv dat].
        + rewrite (Hnx j Hj). rewrite (Hpv j) by lia.
          assert (Hpj : match prev_current ds j with Some x => if x =? i then prev_current ds i else Some x | None => None end
                        = if ptr_eqb (next_current ds i) (Some j) then prev_current ds i else prev_current ds j).
          { destruct (next_current ds i) as [x|] eqn:Ex; cbn [ptr_eqb].
            - destruct (Nat.eqb_spec x j) as [->|Hxj].
              + rewrite (next_prev ds i j Hci Ex). now rewrite Nat.eqb_refl.
              + destruct (prev_current ds j) as [q|] eqn:Eq; auto.
                destruct (Nat.eqb_spec q i) as [->|]; auto.
                pose proof (prev_next ds i j Hj Hcj Eq). congruence.
            - destruct (prev_current ds j) as [q|] eqn:Eq; auto.
              destruct (Nat.eqb_spec q i) as [->|]; auto.
              pose proof (prev_next ds i j Hj Hcj Eq). congruence. }
          rewrite Hpj.
          destruct (next_current ds j) as [y|] eqn:Ey.
          * destruct (Nat.eqb_spec y i) as [->|Hyi].
            -- (* j is the predecessor of i *)
               rewrite (next_prev ds j i Hcj Ey). cbn [ptr_eqb]. rewrite Nat.eqb_refl.
               destruct (next_current ds i) as [x|] eqn:Ex.
               ++ destruct (Nat.eqb_spec m i) as [->|Hmi]; [pose proof (next_newest ds i Em); congruence|].
                  cbn [ptr_eqb]. destruct (Nat.eqb_spec m j) as [->|]; auto.
                  pose proof (next_newest ds j Em). congruence.
               ++ pose proof (next_none ds i m Em Hci Ex) as ->. rewrite Nat.eqb_refl.
                  cbn [ptr_eqb]. rewrite Nat.eqb_refl. auto.
            -- destruct (prev_current ds i) as [p|] eqn:Ep; cbn [ptr_eqb].
               ++ destruct (Nat.eqb_spec p j) as [->|Hpj'].
                  ** pose proof (prev_next ds j i Hi Hci Ep). congruence.
                  ** destruct (m =? i); cbn [ptr_eqb].
                     --- destruct (Nat.eqb_spec p j); [lia|auto].
                     --- destruct (Nat.eqb_spec m j) as [->|]; auto. pose proof (next_newest ds j Em). congruence.
               ++ destruct (m =? i); cbn [ptr_eqb]; auto.
                  destruct (Nat.eqb_spec m j) as [->|]; auto. pose proof (next_newest ds j Em). congruence.
          * pose proof (next_none ds j m Em Hcj Ey) as ->.
            destruct (Nat.eqb_spec m i); [lia|]. cbn [ptr_eqb]. rewrite Nat.eqb_refl. auto.
        + rewrite forward_snoc by auto.
          assert (ptr_eqb (prev_current ds i) (Some j) = false) as ->.
          { destruct (prev_current ds i) as [p|]; auto. simpl in Fp. cbn [ptr_eqb].
            destruct (Nat.eqb_spec p j) as [->|]; auto. destruct Fp as (_ & Fp & _). congruence. }
          assert (ptr_eqb (next_current ds i) (Some j) = false) as ->.
          { destruct (next_current ds i) as [p|]; auto. simpl in Fx. cbn [ptr_eqb].
            destruct (Nat.eqb_spec p j) as [->|]; auto. destruct Fx as (_ & Fx & _). congruence. }
          assert (ptr_eqb (if m =? i then prev_current ds i else Some m) (Some j) = false) as ->; auto.
          destruct (m =? i).
          * destruct (prev_current ds i) as [p|]; auto. simpl in Fp. cbn [ptr_eqb].
            destruct (Nat.eqb_spec p j) as [->|]; auto. destruct Fp as (_ & Fp & _). congruence.
          * cbn [ptr_eqb]. destruct (Nat.eqb_spec m j) as [->|]; auto.
            pose proof (newest_current ds j Em). congruence. }
    assert (Hnew : node_of (ds ++ [d]) n d = mknode None (ctail u) d).
    { unfold node_of, n. rewrite current_new. fold n. rewrite <- Htail.
      rewrite (next_newest (ds ++ [d]) n); auto. rewrite app_length; simpl; fold n; lia. }
    unfold push_back. rewrite Ul. fold n.
    destruct (ctail u) as [t|] eqn:Et.
    + assert (Htn : t < n).
      { revert Ut. clear Un. destruct (Nat.eqb_spec m i); intros Ut; [|assert (t = m) by congruence; lia].
        assert (Ep : prev_current ds i = Some t) by congruence. rewrite Ep in Fp. simpl in Fp. lia. }
      destruct (nth_error (nodes u) t) as [nt|] eqn:Ent; [|apply nth_error_None in Ent; lia].
      unfold set_nxt, rd. cbn [nodes]. rewrite nth_error_app1, Ent by (fold n; lia).
      cbn [bind nodes chead ctail umap].
      eexists; split; [reflexivity|]. constructor; cbn [nodes chead ctail umap].
      * rewrite length_set_nth, !app_length. simpl. lia.
      * intros j dj Ej. rewrite nth_error_set_nth, app_length, Ul. simpl length.
        assert (t <? length ds + 1 = true) as -> by (apply Nat.ltb_lt; fold n; lia). rewrite andb_true_r.
        rewrite nth_error_snoc. pose proof (eq_trans (eq_sym (nth_error_snoc ds d j)) Ej) as Ej'. clear Ej. rename Ej' into Ej. rewrite Ul. fold n in Ej |- *.
        revert Ej. destruct (Nat.eqb_spec j n) as [->|Hjn]; intros Ej.
        -- destruct (Nat.eqb_spec t n); [lia|]. injection Ej as <-. now rewrite Hnew.
        -- rewrite (Hnode j dj Ej). assert (Hj : j < n) by (apply nth_error_Some; congruence).
           cbn [ptr_eqb]. destruct (Nat.eqb_spec t j) as [->|].
           ++ now rewrite Ent.
           ++ destruct (nth_error (nodes u) j) eqn:E; auto. apply nth_error_None in E. lia.
      * exact Hhd.
      * rewrite app_length. simpl. rewrite Nat.add_1_r. reflexivity.
      * rewrite Uu. apply rep_map_step, R.
    + cbn [bind nodes chead ctail umap].
      eexists; split; [reflexivity|]. constructor; cbn [nodes chead ctail umap].
      * rewrite !app_length. simpl. lia.
      * intros j dj Ej. rewrite nth_error_snoc. pose proof (eq_trans (eq_sym (nth_error_snoc ds d j)) Ej) as Ej'. clear Ej. rename Ej' into Ej. rewrite Ul. fold n in Ej |- *.
        revert Ej. destruct (Nat.eqb_spec j n) as [->|Hjn]; intros Ej.
        -- injection Ej as <-. now rewrite Hnew.
        -- rewrite (Hnode j dj Ej). assert (Hj : j < n) by (apply nth_error_Some; congruence).
           destruct (nth_error (nodes u) j) eqn:E; auto. apply nth_error_None in E. lia.
      * exact Hhd.
      * rewrite app_length. simpl. rewrite Nat.add_1_r. reflexivity.
      * rewrite Uu. apply rep_map_step, R.
  - pose proof (keyed_none ds (hash d) Ef) as Hk. set (n := length ds) in *. simpl bind.
    assert (Hc : forall j, j < length ds -> current (ds ++ [d]) j = current ds j && negb (j =? n)).
    { intros j Hj. rewrite current_snoc_none by auto. destruct (Nat.eqb_spec j n); [unfold n in *; lia|now rewrite andb_true_r]. }
    pose proof (next_snoc ds d n Hc) as Hnx. pose proof (prev_snoc ds d n Hc) as Hpv.
    pose proof (oldest_snoc ds d n Hc) as Hol. fold n in Hnx, Hpv, Hol.
    assert (Hlt : forall o, o < n -> (o =? n) = false) by (intros; apply Nat.eqb_neq; lia).
    assert (Hpv' : forall j, j <= n -> prev_current (ds ++ [d]) j = prev_current ds j).
    { intros j Hj. rewrite Hpv by auto. pose proof (proj1 (proj2 (firsts ds)) j) as F.
      destruct (prev_current ds j) as [x|]; auto. simpl in F. rewrite Hlt by lia. auto. }
    assert (Hnx' : forall j, j < n -> next_current (ds ++ [d]) j = match next_current ds j with Some x => Some x | None => Some n end).
    { intros j Hj. rewrite Hnx by auto. pose proof (proj1 (firsts ds) j) as F.
      destruct (next_current ds j) as [x|]; auto. simpl in F. fold n in F. rewrite Hlt by lia. auto. }
    assert (Hnew : node_of (ds ++ [d]) n d = mknode None (newest n) d).
    { unfold node_of, n. rewrite current_new. fold n. rewrite Hpv' by lia.
      rewrite (next_newest (ds ++ [d]) n) by (rewrite app_length; simpl; fold n; lia).
      f_equal. destruct (Nat.eq_dec n 0) as [E0|E0]; [rewrite E0; reflexivity|].
      assert (Em : exists m, length ds = S m) by (destruct (length ds); [lia|eauto]). destruct Em as [m Em].
      unfold n. rewrite (prev_new ds m Em), Em. reflexivity. }
    assert (Hnode : forall j dj, nth_error ds j = Some dj ->
       node_of (ds ++ [d]) j dj =
       if ptr_eqb (newest n) (Some j) then mknode (Some n) (prv (node_of ds j dj)) dj else node_of ds j dj).
    { intros j dj Ej. assert (Hj : j < n) by (apply nth_error_Some; congruence).
      assert (Em : exists m, n = S m) by (destruct n; [lia|eauto]). destruct Em as [m Em]. unfold n in Em.
      unfold n. rewrite Em. cbn [newest ptr_eqb]. rewrite <- Em. fold n.
      unfold node_of. rewrite Hc, Hlt, andb_true_r by auto.
      destruct (current ds j) eqn:Hcj.
      - rewrite Hnx', Hpv' by lia. cbn [prv]. destruct (Nat.eqb_spec m j) as [->|Hmj].
        + now rewrite (next_newest ds j Em).
        + destruct (next_current ds j) eqn:Ex; auto. exfalso; apply Hmj; symmetry; now apply (next_none ds j m).
      - rewrite forward_snoc by auto. destruct (Nat.eqb_spec m j) as [->|]; auto.
        pose proof (newest_current ds j Em). congruence. }
    unfold push_back. rewrite (rep_tail _ _ R). fold n. rewrite (rep_len _ _ R). fold n.
    destruct (newest n) as [t|] eqn:Et.
    + assert (Em : n = S t) by (destruct n; simpl in Et; [discriminate|congruence]).
      destruct (nth_nodes_lt ds c t R) as (dt & Edt & Ent); [fold n; lia|].
      unfold set_nxt, rd. cbn [nodes]. rewrite nth_error_app1, Ent by (rewrite (rep_len _ _ R); fold n; lia).
      cbn [bind nodes chead ctail umap].
      eexists; split; [reflexivity|]. constructor; cbn [nodes chead ctail umap].
      * rewrite length_set_nth, !app_length, (rep_len _ _ R). auto.
      * intros j dj Ej. rewrite nth_error_set_nth, app_length, (rep_len _ _ R). simpl length.
        assert (t <? length ds + 1 = true) as -> by (apply Nat.ltb_lt; fold n; lia). rewrite andb_true_r.
        rewrite nth_error_snoc. pose proof (eq_trans (eq_sym (nth_error_snoc ds d j)) Ej) as Ej'. clear Ej. rename Ej' into Ej. rewrite (rep_len _ _ R). fold n in Ej |- *.
        revert Ej. destruct (Nat.eqb_spec j n) as [->|Hjn]; intros Ej.
        -- destruct (Nat.eqb_spec t n); [lia|]. injection Ej as <-. now rewrite Hnew.
        -- rewrite (Hnode j dj Ej). cbn [ptr_eqb]. destruct (Nat.eqb_spec t j) as [->|].
           ++ f_equal. f_equal; [f_equal; congruence|]. unfold node_of. destruct (current ds j); cbn; congruence.
           ++ now apply R.
      * rewrite Hol. rewrite (rep_head _ _ R). destruct (oldest_some ds ltac:(fold n; lia)) as (o & -> & _ & Ho).
        fold n in Ho. now rewrite Hlt.
      * rewrite app_length. simpl. rewrite Nat.add_1_r. reflexivity.
      * apply rep_map_step, R.
    + assert (En : n = 0) by (destruct n; simpl in Et; [auto|discriminate]).
      assert (Eds : ds = []) by (apply length_zero_iff_nil; exact En).
      cbn [bind nodes chead ctail umap].
      eexists; split; [reflexivity|]. constructor; cbn [nodes chead ctail umap].
      * rewrite !app_length, (rep_len _ _ R). auto.
      * intros j dj Ej. rewrite nth_error_snoc. pose proof (eq_trans (eq_sym (nth_error_snoc ds d j)) Ej) as Ej'. clear Ej. rename Ej' into Ej. rewrite (rep_len _ _ R). fold n in Ej |- *.
        revert Ej. destruct (Nat.eqb_spec j n) as [->|Hjn]; intros Ej.
        -- injection Ej as <-. now rewrite Hnew.
        -- exfalso. rewrite Eds in Ej. destruct j; discriminate.
      * rewrite Hol. pose proof (proj2 (proj2 (firsts ds))) as F. destruct (oldest ds) as [o|]; simpl in F; auto. fold n in F; lia.
      * rewrite app_length. simpl. rewrite Nat.add_1_r. reflexivity.
      * apply rep_map_step, R.
Qed.

Lemma adds_ok ds : forall es c, Rep es c -> exists c', adds hash keqb c ds = Ok c' /\ Rep (es ++ ds) c'.
Proof.
  induction ds as [|d ds IH]; intros es c R; simpl.
  - exists c. rewrite app_nil_r. auto.
  - destruct (add_ok es c d R) as (c' & -> & R'). simpl.
    destruct (IH _ _ R') as (c'' & E & R''). exists c''. split; auto. rewrite <- app_assoc in R''. exact R''.
Qed.

(** ---- reading ---- *)

Notation leads := (leads hash keqb).

Lemma node_at ds c i : Rep ds c -> i < length ds ->
  exists d, nth_error ds i = Some d /\ rd (nodes c) i = Ok (node_of ds i d).
Proof.
  intros R Hi. destruct (nth_nodes_lt ds c i R Hi) as (d & E1 & E2). exists d; split; auto. now apply rd_ok.
Qed.

Lemma dat_node_of ds i d : dat (node_of ds i d) = d.
Proof. unfold node_of. destruct (current ds i); auto. Qed.

Lemma read_new ds c : Rep ds c ->
  get_latest c None = Ok (match oldest ds with Some i => (nth_error ds i, Some i) | None => (None, None) end).
Proof.
  intros R. unfold get_latest. rewrite (rep_head _ _ R). destruct (oldest ds) as [i|] eqn:E; auto.
  pose proof (proj2 (proj2 (firsts ds))) as F. rewrite E in F. simpl in F.
  destruct (node_at ds c i R ltac:(lia)) as (d & E1 & E2). rewrite E2. cbn [bind]. now rewrite dat_node_of, E1.
Qed.

Lemma read_current ds c i : Rep ds c -> current ds i = true ->
  get_latest c (Some i) = Ok (match next_current ds i with Some j => (nth_error ds j, Some j) | None => (None, Some i) end).
Proof.
  intros R Hi. pose proof (current_lt ds i Hi) as Hl.
  destruct (node_at ds c i R Hl) as (d & E1 & E2).
  assert (G : grab_truth c (Some i) = Ok (false, Some i)).
  { unfold grab_truth. rewrite (rep_head _ _ R).
    destruct (ptr_eqb (oldest ds) (Some i)) eqn:Eo; auto.
    rewrite E2. cbn [bind skip_broken]. rewrite E2. cbn [bind]. unfold node_of. rewrite Hi. cbn [prv].
    destruct (prev_current ds i) as [p|] eqn:Ep; auto.
    rewrite (prev_oldest ds i Hi Ep) in Eo. cbn in Eo. rewrite Nat.eqb_refl in Eo. discriminate. }
  unfold get_latest. rewrite G. cbn [bind]. rewrite E2. cbn [bind]. unfold node_of. rewrite Hi. cbn [nxt].
  destruct (next_current ds i) as [j|] eqn:Ej; auto.
  pose proof (proj1 (firsts ds) i) as F. rewrite Ej in F. simpl in F.
  destruct (node_at ds c j R ltac:(lia)) as (dj & E3 & E4). rewrite E4. cbn [bind]. now rewrite dat_node_of, E3.
Qed.

(** facts about the replaced values *)
Lemma nth_error_firstn {A} (l : list A) t i : nth_error (firstn t l) i = if i <? t then nth_error l i else None.
Proof.
  revert t i; induction l as [|a l IH]; intros [|t] [|i]; simpl; auto.
  - now destruct (S i <? S t).
  - rewrite IH. reflexivity.
Qed.

Lemma replaced_some ds i : i < length ds -> current ds i = false ->
  exists t, replaced_at ds i = Some t /\ i < t < length ds /\ same_key ds i t = true /\
            current (firstn t ds) i = true.
Proof.
  intros Hi Hc. pose proof (replaced_spec ds i) as F. destruct (replaced_at ds i) as [t|].
  - destruct F as (F1 & F2 & F3). exists t; repeat split; auto; try lia.
    apply current_spec. rewrite firstn_length. split; [lia|]. intros j Hj.
    destruct (Nat.lt_ge_cases j t) as [Hjt|Hjt].
    + unfold CacheSpec.same_key in *. rewrite !nth_error_firstn in *.
      replace (i <? t) with true by (symmetry; apply Nat.ltb_lt; lia).
      replace (j <? t) with true by (symmetry; apply Nat.ltb_lt; lia). apply F3; lia.
    + unfold CacheSpec.same_key. rewrite (proj2 (nth_error_None (firstn t ds) j)) by (rewrite firstn_length; lia).
      now destruct (nth_error (firstn t ds) i).
  - apply current_false in Hc as (j & Hj & E); auto. simpl in F. rewrite F in E by lia. discriminate.
Qed.

Lemma current_firstn ds t j : t <= length ds -> j < t ->
  current (firstn t ds) j = true <-> (forall k, j < k < t -> same_key ds j k = false).
Proof.
  intros Ht Hj. rewrite current_spec, firstn_length. split.
  - intros [_ H] k Hk. specialize (H k ltac:(lia)). unfold CacheSpec.same_key in *. rewrite !nth_error_firstn in H.
    replace (j <? t) with true in H by (symmetry; apply Nat.ltb_lt; lia).
    replace (k <? t) with true in H by (symmetry; apply Nat.ltb_lt; lia). auto.
  - intros H. split; [lia|]. intros k Hk. unfold CacheSpec.same_key in *. rewrite !nth_error_firstn.
    replace (j <? t) with true by (symmetry; apply Nat.ltb_lt; lia).
    destruct (Nat.ltb_spec k t).
    + apply H; lia.
    + now destruct (nth_error ds j).
Qed.

Lemma forward_target ds i t j : i < length ds -> current ds i = false -> replaced_at ds i = Some t ->
  forward ds i = Some j -> current (firstn t ds) j = true /\ j <> i /\ j < t.
Proof.
  intros Hi Hc Et Ef. destruct (replaced_some ds i Hi Hc) as (t' & Et' & Ht & Hs & Hcur).
  assert (t' = t) by congruence; subst t'. unfold CacheSpec.forward in Ef. rewrite Et in Ef.
  pose proof (proj1 (firsts (firstn t ds)) i) as Fx. pose proof (proj1 (proj2 (firsts (firstn t ds))) i) as Fp.
  rewrite firstn_length in Fx.
  destruct (next_current (firstn t ds) i) as [x|].
  - injection Ef as ->. destruct Fx as (F1 & F2 & _). repeat split; auto; lia.
  - rewrite Ef in Fp. destruct Fp as (F1 & F2 & _). repeat split; auto; lia.
Qed.

Lemma same_key_trans ds i j k : same_key ds i k = true -> same_key ds j k = true -> same_key ds i j = true /\ same_key ds j i = true.
Proof.
  rewrite !same_key_spec. intros (x & z & E1 & E2 & E3) (y & z' & E4 & E5 & E6).
  assert (z' = z) by congruence; subst z'. split; [exists x, y|exists y, x]; repeat split; congruence.
Qed.

Lemma forward_later ds i t j t' : i < length ds -> current ds i = false -> replaced_at ds i = Some t ->
  forward ds i = Some j -> replaced_at ds j = Some t' -> t < t'.
Proof.
  intros Hi Hc Et Ef Et'. destruct (forward_target ds i t j Hi Hc Et Ef) as (H1 & H2 & H3).
  destruct (replaced_some ds i Hi Hc) as (t0 & Et0 & Ht & Hs & Hcur).
  assert (t0 = t) by congruence; subst t0.
  pose proof (replaced_spec ds j) as F. rewrite Et' in F. destruct F as (F1 & F2 & F3).
  pose proof (proj1 (current_firstn ds t j ltac:(lia) H3) H1) as Hcj.
  pose proof (proj1 (current_firstn ds t i ltac:(lia) ltac:(lia)) Hcur) as Hci.
  destruct (Nat.lt_trichotomy t t') as [|[Heq|]]; auto; exfalso.
  - subst t'. destruct (same_key_trans ds i j t Hs F2) as [Ha Hb].
    destruct (Nat.lt_trichotomy i j) as [|[|]]; try lia.
    + rewrite Hci in Ha by lia. discriminate.
    + rewrite Hcj in Hb by lia. discriminate.
  - rewrite Hcj in F2 by lia. discriminate.
Qed.

Lemma skip_current ds c r fuel : Rep ds c -> current ds r = true ->
  skip_broken (S (S fuel)) c (Some r) =
  if ptr_eqb (oldest ds) (Some r) then match next_current ds r with Some j => Ok j | None => UB end else Ok r.
Proof.
  intros R Hr. destruct (node_at ds c r R (current_lt ds r Hr)) as (d & E1 & E2).
  cbn [skip_broken]. rewrite E2. cbn [bind]. unfold node_of at 1. rewrite Hr. cbn [prv].
  destruct (prev_current ds r) as [p|] eqn:Ep.
  - destruct (ptr_eqb (oldest ds) (Some r)) eqn:Eo; auto.
    destruct (oldest ds) as [o|] eqn:Eo'; [|discriminate]. cbn in Eo. apply Nat.eqb_eq in Eo. subst o.
    rewrite (oldest_prev ds r Eo') in Ep. discriminate.
  - rewrite (prev_oldest ds r Hr Ep). cbn [ptr_eqb]. rewrite Nat.eqb_refl. unfold node_of. rewrite Hr. cbn [nxt].
    destruct (next_current ds r) as [j|] eqn:Ej; auto.
    pose proof (proj1 (firsts ds) r) as F. rewrite Ej in F. simpl in F.
    destruct (node_at ds c j R ltac:(lia)) as (dj & E3 & E4). rewrite E4. cbn [bind].
    unfold node_of. destruct F as (F1 & F2 & F3). rewrite F2. cbn [prv].
    rewrite (next_prev ds r j Hr Ej). reflexivity.
Qed.

Lemma skip_stale ds c (R : Rep ds c) : forall m i fuel, i < length ds -> current ds i = false ->
  (forall t, replaced_at ds i = Some t -> length ds - t <= m) -> m + 2 <= fuel ->
  (exists r, leads ds i r /\ current ds r = true /\
     skip_broken fuel c (Some i) =
     if ptr_eqb (oldest ds) (Some r) then match next_current ds r with Some j => Ok j | None => UB end else Ok r) \/
  (leads_nowhere hash keqb ds i /\ skip_broken fuel c (Some i) = UB).
Proof.
  induction m as [|m IH]; intros i fuel Hi Hc Hm Hf;
  destruct (replaced_some ds i Hi Hc) as (t & Et & Ht & Hs & Hcur); specialize (Hm t Et); [lia|].
  destruct fuel as [|fuel]; [lia|].
  destruct (node_at ds c i R Hi) as (d & E1 & E2).
  cbn [skip_broken]. rewrite E2. cbn [bind]. unfold node_of. rewrite Hc. cbn [prv nxt].
  destruct (forward ds i) as [j|] eqn:Ef.
  - destruct (forward_target ds i t j Hi Hc Et Ef) as (H1 & H2 & H3).
    destruct (current ds j) eqn:Hcj.
    + left. exists j. split; [eapply leads_on; eauto; now constructor|]. split; auto.
      destruct fuel as [|[|fuel]]; try lia. now apply skip_current.
    + destruct (IH j fuel ltac:(lia) Hcj) as [(r & Hr1 & Hr2 & Hr3)|[Hn1 Hn2]].
      * intros t' Et'. pose proof (forward_later ds i t j t' Hi Hc Et Ef Et'). lia.
      * lia.
      * left. exists r. split; [eapply leads_on; eauto|auto].
      * right. split; auto. eapply nowhere_on; eauto.
  - right. split; [now constructor|]. now destruct fuel.
Qed.

(** a value leads nowhere only when nothing but its key had been added until it was replaced *)
Definition only_key_upto ds i := S i < length ds /\ forall j, j <= S i -> same_key ds j i = true.

Lemma same_key_refl ds i : i < length ds -> same_key ds i i = true.
Proof. intros H. destruct (nth_error ds i) as [x|] eqn:E; [|apply nth_error_None in E; lia]. apply same_key_spec; eauto. Qed.
Lemma same_key_sym ds i j : same_key ds i j = true -> same_key ds j i = true.
Proof. rewrite !same_key_spec. intros (x & y & E1 & E2 & E3); exists y, x; auto. Qed.
Lemma same_key_tr ds i j k : same_key ds i j = true -> same_key ds j k = true -> same_key ds i k = true.
Proof.
  rewrite !same_key_spec. intros (x & y & E1 & E2 & E3) (y' & z & E4 & E5 & E6). exists x, z; repeat split; congruence.
Qed.

(** two values with different keys before [t] give two current values at [t] *)
Lemma forward_none ds i t : i < length ds -> current ds i = false -> replaced_at ds i = Some t -> forward ds i = None ->
  forall j, j <= t -> same_key ds j i = true.
Proof.
  intros Hi Hc Et Ef. destruct (replaced_some ds i Hi Hc) as (t' & Et' & Ht & Hs & Hcur).
  assert (t' = t) by congruence; subst t'. unfold CacheSpec.forward in Ef. rewrite Et in Ef.
  pose proof (proj1 (firsts (firstn t ds)) i) as Fx. pose proof (proj1 (proj2 (firsts (firstn t ds))) i) as Fp.
  rewrite firstn_length in Fx. replace (Nat.min t (length ds)) with t in Fx by lia.
  destruct (next_current (firstn t ds) i) as [x|]; [discriminate|]. rewrite Ef in Fp. simpl in Fx, Fp.
  intros j Hj. destruct (Nat.eq_dec j t) as [->|]; [now apply same_key_sym|].
  destruct (nth_error (firstn t ds) j) as [x|] eqn:Ex.
  2:{ apply nth_error_None in Ex. rewrite firstn_length in Ex. lia. }
  destruct (current_exists (firstn t ds) j x Ex) as (k & y & H1 & H2 & H3 & H4).
  assert (k = i).
  { destruct (Nat.lt_trichotomy k i) as [|[|]]; auto.
    - rewrite Fp in H2 by lia. discriminate.
    - pose proof (current_lt _ _ H2) as Hk. rewrite firstn_length in Hk. rewrite Fx in H2 by lia. discriminate. }
  subst k. rewrite nth_error_firstn in Ex, H3.
  destruct (j <? t); [|discriminate]. destruct (i <? t); [|discriminate].
  apply same_key_spec. exists x, y; auto.
Qed.

Lemma all_same_current ds t i : t <= length ds -> i < t -> current (firstn t ds) i = true ->
  (forall j, j < t -> same_key ds j i = true) -> S i = t.
Proof.
  intros Ht Hi Hc H. destruct (Nat.eq_dec (S i) t) as [|Hne]; auto. exfalso.
  pose proof (proj1 (current_firstn ds t i Ht Hi) Hc (S i) ltac:(lia)) as E.
  rewrite (same_key_sym ds (S i) i) in E by (apply H; lia). discriminate.
Qed.

Lemma only_key_forward ds i : only_key_upto ds i -> current ds i = false /\ replaced_at ds i = Some (S i) /\ forward ds i = None.
Proof.
  intros [H1 H2].
  assert (Hs : same_key ds i (S i) = true) by (apply same_key_sym, H2; lia).
  assert (Hc : current ds i = false).
  { apply not_true_iff_false. intros E. apply current_spec in E as [_ E]. rewrite E in Hs by lia. discriminate. }
  assert (Er : replaced_at ds i = Some (S i)).
  { apply (isfirst_unique (same_key ds i) (S i) (length ds)); [apply replaced_spec|]. simpl. repeat split; auto; lia. }
  repeat split; auto. unfold CacheSpec.forward. rewrite Er.
  assert (next_current (firstn (S i) ds) i = None) as ->.
  { apply next_is. rewrite firstn_length. intros k Hk. exfalso; lia. }
  apply prev_is. simpl. intros j Hj. apply not_true_iff_false. intros E.
  apply (current_firstn ds (S i) j) with (k := i) in E; try lia. rewrite H2 in E by lia. discriminate.
Qed.

Lemma nowhere_only_key ds i : leads_nowhere hash keqb ds i <-> only_key_upto ds i.
Proof.
  split.
  - assert (Hbase : forall i, i < length ds -> current ds i = false -> forward ds i = None -> only_key_upto ds i).
    { intros k H H0 H1. destruct (replaced_some ds k H H0) as (t & Et & Ht & Hs & Hcur).
      pose proof (forward_none ds k t H H0 Et H1) as Hall.
      pose proof (all_same_current ds t k ltac:(lia) ltac:(lia) Hcur ltac:(intros; apply Hall; lia)) as <-.
      split; [lia|auto]. }
    induction 1 as [i H H0 H1|i j Hc Ef Hn IH]; auto.
    exfalso. destruct IH as [IH1 IH2].
    assert (Hi : i < length ds).
    { destruct (Nat.lt_ge_cases i (length ds)); auto. unfold CacheSpec.forward in Ef.
      pose proof (replaced_spec ds i) as F. destruct (replaced_at ds i) as [t|]; [|discriminate].
      destruct F as (_ & F & _). apply same_key_spec in F as (x & _ & F & _).
      assert (i < length ds) by (apply nth_error_Some; congruence). lia. }
    destruct (replaced_some ds i Hi Hc) as (t & Et & Ht & Hs & Hcur).
    destruct (forward_target ds i t j Hi Hc Et Ef) as (H1 & H2 & H3).
    (* the values before S j all have one key, so i < j would make i not current *)
    pose proof (only_key_forward ds j (conj IH1 IH2)) as (Hcj & Erj & _).
    pose proof (forward_later ds i t j (S j) Hi Hc Et Ef Erj). lia.
  - intros H. destruct (only_key_forward ds i H) as (H1 & H2 & H3). constructor; auto. destruct H; lia.
Qed.

(** the value a consumer gets that holds the replaced value [i] *)
Definition resumes ds i j : Prop :=
  exists r, leads ds i r /\ current ds r = true /\
    if ptr_eqb (oldest ds) (Some r) then next_current ds r = Some j else j = r.

Lemma read_stale ds c i : Rep ds c -> i < length ds -> current ds i = false ->
  (exists j, resumes ds i j /\ current ds j = true /\ get_latest c (Some i) = Ok (nth_error ds j, Some j)) \/
  (only_key_upto ds i /\ get_latest c (Some i) = UB).
Proof.
  intros R Hi Hc.
  assert (G : get_latest c (Some i) =
     (a <- skip_broken (S (length (nodes c))) c (Some i) ;; n <- rd (nodes c) a ;; Ok (Some (dat n), Some a))).
  { unfold get_latest, grab_truth. destruct (node_at ds c i R Hi) as (d & E1 & E2).
    assert (ptr_eqb (chead c) (Some i) = false) as ->.
    { rewrite (rep_head _ _ R). destruct (oldest ds) as [o|] eqn:Eo; auto. cbn.
      pose proof (proj2 (proj2 (firsts ds))) as F. rewrite Eo in F. destruct F as (_ & F & _).
      apply Nat.eqb_neq. intros ->. congruence. }
    rewrite E2. cbn [bind]. unfold node_of. rewrite Hc. cbn [prv].
    destruct (skip_broken (S (length (nodes c))) c (Some i)); auto. }
  destruct (replaced_some ds i Hi Hc) as (t & Et & Ht & Hs & Hcur).
  destruct (skip_stale ds c R (length ds - 1) i (S (length (nodes c))) Hi Hc) as [(r & H1 & H2 & H3)|[H1 H2]].
  - intros t' Et'. assert (t' = t) by congruence; lia.
  - rewrite (rep_len _ _ R). lia.
  - destruct (ptr_eqb (oldest ds) (Some r)) eqn:Eo.
    + destruct (next_current ds r) as [j|] eqn:Ej.
      * left. exists j.
        pose proof (proj1 (firsts ds) r) as F. rewrite Ej in F. destruct F as (F1 & F2 & F3).
        destruct (node_at ds c j R ltac:(lia)) as (dj & E3 & E4).
        split; [exists r; rewrite Eo; auto|]. split; auto.
        rewrite G, H3. cbn [bind]. rewrite E4. cbn [bind]. now rewrite dat_node_of, E3.
      * (* a single current value: impossible *)
        exfalso. destruct (oldest ds) as [o|] eqn:Eo'; [|discriminate]. cbn in Eo. apply Nat.eqb_eq in Eo. subst o.
        assert (Hall : forall k, current ds k = true -> k = r).
        { intros k Hk. pose proof (proj1 (firsts ds) r) as F. rewrite Ej in F.
          pose proof (proj2 (proj2 (firsts ds))) as F'. rewrite Eo' in F'. destruct F' as (_ & _ & F').
          destruct (Nat.lt_trichotomy k r) as [|[|]]; auto.
          - rewrite F' in Hk by lia; discriminate.
          - pose proof (current_lt _ _ Hk). rewrite F in Hk by lia; discriminate. }
        assert (Hkey : forall k, k < length ds -> same_key ds k r = true).
        { intros k Hk. destruct (nth_error ds k) as [x|] eqn:Ex; [|apply nth_error_None in Ex; lia].
          destruct (current_exists ds k x Ex) as (k' & y & _ & K2 & K3 & K4). apply Hall in K2. subst k'.
          apply same_key_spec; eauto. }
        assert (only_key_upto ds i) as Ho.
        { split; [lia|]. intros k Hk. apply (same_key_tr ds k r i); [apply Hkey; lia|].
          apply same_key_sym, Hkey; lia. }
        apply only_key_forward in Ho as (_ & _ & Ho).
        inversion H1; subst; congruence.
    + left. exists r. destruct (node_at ds c r R (current_lt _ _ H2)) as (dr & E3 & E4).
      split; [exists r; rewrite Eo; auto|]. split; auto.
      rewrite G, H3. cbn [bind]. rewrite E4. cbn [bind]. now rewrite dat_node_of, E3.
  - right. split; [now apply nowhere_only_key|]. now rewrite G, H2.
Qed.

(** ---- consecutive reads ---- *)

Notation values := (@values T).
Definition rest ds i := filter (current ds) (seq (S i) (length ds - S i)).

Lemma filter_from P n : forall a, filter P (seq a n) =
  match find P (seq a n) with Some j => j :: filter P (seq (S j) (a + n - S j)) | None => [] end.
Proof.
  induction n as [|n IH]; intros a; simpl; auto.
  destruct (P a) eqn:E.
  - replace (a + S n - S a) with n by lia. auto.
  - rewrite IH. replace (S a + n) with (a + S n) by lia. auto.
Qed.

Lemma rest_next ds i : rest ds i = match next_current ds i with Some j => j :: rest ds j | None => [] end.
Proof.
  unfold rest, CacheSpec.next_current. rewrite filter_from.
  destruct (find (current ds) (seq (S i) (length ds - S i))) as [j|] eqn:E; auto.
  apply find_some in E as [E _]. apply in_seq in E.
  replace (S i + (length ds - S i)) with (length ds) by lia. auto.
Qed.

Lemma currents_oldest ds : currents hash keqb ds = match oldest ds with Some j => j :: rest ds j | None => [] end.
Proof.
  unfold currents, CacheSpec.oldest, rest. rewrite filter_from. simpl. auto.
Qed.

Lemma values_cons ds i l d : nth_error ds i = Some d -> values ds (i :: l) = d :: values ds l.
Proof. intros E. unfold CacheSpec.values. simpl. rewrite E. auto. Qed.

Lemma reads_none c it m : get_latest (K := K) c it = Ok (None, it) -> reads m c it = Ok (repeat (@None T) m, it).
Proof. intros E. induction m as [|m IH]; cbn [reads repeat]; auto. rewrite E. cbn [bind]. now rewrite IH. Qed.

Lemma reads_current ds c (R : Rep ds c) : forall g i m, length ds - i <= g -> current ds i = true ->
  exists it, reads (length (rest ds i) + m) c (Some i) = Ok (map Some (values ds (rest ds i)) ++ repeat None m, it).
Proof.
  induction g as [|g IH]; intros i m Hg Hi; [pose proof (current_lt _ _ Hi); lia|].
  pose proof (read_current ds c i R Hi) as E. rewrite rest_next.
  pose proof (proj1 (firsts ds) i) as F. destruct (next_current ds i) as [j|].
  - destruct F as (F1 & F2 & F3). destruct (nth_error ds j) as [d|] eqn:Ed; [|apply nth_error_None in Ed; lia].
    destruct (IH j m ltac:(lia) F2) as [it IH']. exists it.
    rewrite (values_cons ds j _ d Ed). cbn [length Nat.add reads map app]. rewrite E. cbn [bind]. rewrite IH'. auto.
  - exists (Some i). simpl. now apply reads_none.
Qed.

Lemma reads_fresh ds c m (R : Rep ds c) :
  exists it, reads (length (currents hash keqb ds) + m) c None =
             Ok (map Some (values ds (currents hash keqb ds)) ++ repeat None m, it).
Proof.
  pose proof (read_new ds c R) as E. rewrite currents_oldest.
  pose proof (proj2 (proj2 (firsts ds))) as F. destruct (oldest ds) as [o|].
  - destruct F as (F1 & F2 & F3). destruct (nth_error ds o) as [d|] eqn:Ed; [|apply nth_error_None in Ed; lia].
    destruct (reads_current ds c R (length ds) o m ltac:(lia) F2) as [it H]. exists it.
    rewrite (values_cons ds o _ d Ed). cbn [length Nat.add reads map app]. rewrite E. cbn [bind]. rewrite H. auto.
  - exists None. simpl. now apply reads_none.
Qed.

Lemma currents_split ds L1 i L2 : currents hash keqb ds = L1 ++ i :: L2 -> current ds i = true /\ L2 = rest ds i.
Proof.
  assert (G : forall n a L1, filter (current ds) (seq a n) = L1 ++ i :: L2 ->
    current ds i = true /\ L2 = filter (current ds) (seq (S i) (a + n - S i))).
  { induction n as [|n IH]; intros a L1' E; simpl in E.
    - destruct L1'; discriminate.
    - destruct (current ds a) eqn:Ea.
      + destruct L1' as [|b L1']; simpl in E; injection E as E1 E2.
        * subst a. split; auto. replace (i + S n - S i) with n by lia. auto.
        * apply IH in E2 as [? ->]. split; auto. replace (S a + n) with (a + S n) by lia. auto.
      + apply IH in E as [? ->]. split; auto. replace (S a + n) with (a + S n) by lia. auto. }
  intros E. apply (G (length ds) 0 L1) in E. exact E.
Qed.

(** ---- the values delivered to one consumer ---- *)

Lemma leads_fun ds i r r' : leads ds i r -> leads ds i r' -> r = r'.
Proof.
  intros H; revert r'. induction H; intros r' H'; inversion H'; subst; try congruence.
  apply IHleads. congruence.
Qed.

Lemma leads_lt ds i r : leads ds i r -> current ds r = true.
Proof. induction 1; auto. Qed.

Lemma leads_step ds d i r r' : i < length ds -> leads ds i r -> leads (ds ++ [d]) r r' -> leads (ds ++ [d]) i r'.
Proof.
  intros Hi H. revert Hi. induction H; intros Hi H'; auto.
  destruct (replaced_some ds i Hi H) as (t & Et & Ht & _).
  destruct (forward_target ds i t j Hi H Et H0) as (_ & _ & Hj).
  eapply leads_on; [|rewrite forward_snoc; eauto|apply IHleads; auto; lia].
  now apply current_stays_false.
Qed.

Definition unread ds (rn : list nat) j := current ds j = true /\ ~ In j rn.

(** [rn]: numbers received, newest first *)
Fixpoint keymono ds (rn : list nat) : Prop :=
  match rn with
  | [] => True
  | g :: rn' => (forall h, In h rn' -> same_key ds h g = true -> h <= g) /\ keymono ds rn'
  end.

Definition placed ds (it : option nat) rn : Prop :=
  match it with
  | None => True
  | Some c => c < length ds /\
    if current ds c then forall j, unread ds rn j -> c < j
    else exists r, leads ds c r /\ forall j, unread ds rn j -> r <= j /\ (oldest ds = Some r -> r < j)
  end.

Definition CInv ds (k : consumer) rn : Prop :=
  got k = values ds (rev rn) /\ (forall g, In g rn -> g < length ds) /\ keymono ds rn /\ placed ds (citer k) rn.

Lemma oldest_same ds d o : oldest ds = Some o -> current (ds ++ [d]) o = true -> oldest (ds ++ [d]) = Some o.
Proof.
  intros E H. pose proof (proj2 (proj2 (firsts ds))) as F. rewrite E in F. destruct F as (F1 & F2 & F3).
  apply oldest_is. simpl. rewrite app_length. simpl. repeat split; auto; try lia.
  intros j Hj. apply current_stays_false; [lia|]. apply F3; lia.
Qed.

Lemma current_back ds d j : j < length ds -> current (ds ++ [d]) j = true -> current ds j = true.
Proof. intros Hj H. destruct (current ds j) eqn:E; auto. rewrite (current_stays_false ds d j Hj E) in H. discriminate. Qed.

Lemma unread_step ds d rn j : (forall g, In g rn -> g < length ds) -> unread (ds ++ [d]) rn j ->
  j = length ds \/ (unread ds rn j /\ j < length ds).
Proof.
  intros Hrn [H1 H2]. pose proof (current_lt _ _ H1) as Hl. rewrite app_length in Hl; simpl in Hl.
  destruct (Nat.eq_dec j (length ds)); auto. right. split; [|lia]. split; auto. apply (current_back ds d); auto; lia.
Qed.

(** replacing the current value [c] that is not the oldest *)
Lemma replace_current ds d c rn :
  current ds c = true -> current (ds ++ [d]) c = false -> oldest ds <> Some c ->
  (forall g, In g rn -> g < length ds) ->
  (forall j, unread ds rn j -> c <= j) ->
  exists r, leads (ds ++ [d]) c r /\ forall j, unread (ds ++ [d]) rn j -> r <= j /\ (oldest (ds ++ [d]) = Some r -> r < j).
Proof.
  intros Hc Hc' Ho Hrn Hu. pose proof (current_lt _ _ Hc) as Hl.
  destruct (nth_error ds c) as [x|] eqn:Ex; [|apply nth_error_None in Ex; lia].
  pose proof (current_snoc ds d c x Ex) as E. rewrite Hc', Hc in E. simpl in E. symmetry in E. apply negb_false_iff, keqb_ok in E.
  assert (Hk : keyed ds (hash d) c = true).
  { unfold keyed. rewrite Hc, Ex. now apply keqb_ok. }
  pose proof (fun j => current_snoc_some ds d c j Hk) as Hcs.
  pose proof (forward_now ds d c x Ex Hc E) as Ef.
  destruct (oldest_some ds ltac:(lia)) as (o & Eo & Hoc & Hol).
  assert (Eo' : oldest (ds ++ [d]) = Some o).
  { apply oldest_same; auto. rewrite Hcs by auto. rewrite Hoc. destruct (Nat.eqb_spec o c); [congruence|auto]. }
  assert (Hoc' : o < c).
  { pose proof (proj2 (proj2 (firsts ds))) as F. rewrite Eo in F. destruct F as (F1 & F2 & F3).
    destruct (Nat.lt_trichotomy o c) as [|[|]]; auto; [congruence|]. rewrite F3 in Hc by lia. discriminate. }
  pose proof (proj1 (firsts ds) c) as Fx. pose proof (proj1 (proj2 (firsts ds)) c) as Fp.
  destruct (next_current ds c) as [y|] eqn:Ey.
  - destruct Fx as (F1 & F2 & F3). exists y. split.
    + eapply leads_on; eauto. constructor. rewrite Hcs by lia. rewrite F2. destruct (Nat.eqb_spec y c); [lia|auto].
    + intros j Hj. rewrite Eo'. pose proof Hj as Hj0. apply unread_step in Hj as [->|[Hj Hjl]]; auto.
      * split; [lia|]. intros; lia.
      * assert (c <> j) by (intros <-; destruct Hj0; congruence).
        specialize (Hu j Hj). destruct (Nat.lt_ge_cases j y) as [Hjy|].
        -- destruct Hj as [Hj _]. rewrite F3 in Hj by lia. discriminate.
        -- split; auto. intros E'. injection E' as E'. lia.
  - destruct (prev_current ds c) as [p|] eqn:Ep.
    2:{ exfalso. apply Ho. now apply prev_oldest. }
    destruct Fp as (P1 & P2 & P3). exists p. split.
    + eapply leads_on; eauto. constructor. rewrite Hcs by lia. rewrite P2. destruct (Nat.eqb_spec p c); [lia|auto].
    + intros j Hj. pose proof Hj as Hj0. apply unread_step in Hj as [->|[Hj Hjl]]; auto.
      * split; [lia|]. intros; lia.
      * exfalso. assert (c <> j) by (intros <-; destruct Hj0; congruence).
        specialize (Hu j Hj). destruct Hj as [Hj _]. simpl in Fx. rewrite Fx in Hj by lia. discriminate.
Qed.

Lemma placed_add ds d it rn :
  placed ds it rn -> (forall g, In g rn -> g < length ds) ->
  (forall o x, oldest ds = Some o -> nth_error ds o = Some x -> hash x = hash d ->
     match it with None => True | Some c => current ds c = true /\ c <> o end) ->
  placed (ds ++ [d]) it rn.
Proof.
  intros HP Hrn HG. destruct it as [c|]; auto. destruct HP as [Hl HP]. split; [rewrite app_length; lia|].
  assert (Hold : current (ds ++ [d]) c = false -> forall o, oldest ds = Some o -> current (ds ++ [d]) o = false ->
                 current ds c = true /\ c <> o).
  { intros _ o Eo Ho. pose proof (proj2 (proj2 (firsts ds))) as F. rewrite Eo in F. destruct F as (F1 & F2 & F3).
    destruct (nth_error ds o) as [x|] eqn:Ex; [|apply nth_error_None in Ex; lia].
    apply (HG o x Eo Ex). pose proof (current_snoc ds d o x Ex) as E. rewrite Ho, F2 in E. simpl in E.
    symmetry in E. now apply negb_false_iff, keqb_ok in E. }
  destruct (current ds c) eqn:Hc.
  - destruct (current (ds ++ [d]) c) eqn:Hc'.
    + intros j Hj. apply unread_step in Hj as [->|[Hj Hjl]]; auto.
    + apply replace_current; auto.
      * intros Eo. destruct (Hold eq_refl c Eo Hc'). lia.
      * intros j Hj. specialize (HP j Hj). lia.
  - assert (Hc' : current (ds ++ [d]) c = false) by now apply current_stays_false. rewrite Hc'.
    destruct HP as (r & Hr & HP). pose proof (leads_lt _ _ _ Hr) as Hrc. pose proof (current_lt _ _ Hrc) as Hrl.
    destruct (oldest_some ds ltac:(lia)) as (o & Eo & Hoc & Hol).
    assert (Ho : current (ds ++ [d]) o = true).
    { destruct (current (ds ++ [d]) o) eqn:E; auto. destruct (Hold Hc' o Eo E). discriminate. }
    destruct (current (ds ++ [d]) r) eqn:Hr'.
    + exists r. split; [apply (leads_step ds d c r r); auto; now constructor|].
      intros j Hj. apply unread_step in Hj as [->|[Hj Hjl]]; auto.
      * split; [lia|intros; lia].
      * destruct (HP j Hj) as [H1 H2]. split; auto. rewrite (oldest_same ds d o Eo Ho). intros E. apply H2. congruence.
    + destruct (replace_current ds d r rn) as (r' & H1 & H2); auto.
      * intros E. assert (r = o) by congruence. congruence.
      * intros j Hj. now apply HP.
      * exists r'. split; auto. now apply (leads_step ds d c r r').
Qed.

Lemma keymono_snoc ds d rn : (forall g, In g rn -> g < length ds) -> keymono ds rn -> keymono (ds ++ [d]) rn.
Proof.
  induction rn as [|g rn IH]; simpl; auto. intros Hl [H1 H2]. split; [|apply IH; auto].
  intros h Hh E. rewrite same_key_app in E by auto. auto.
Qed.

Lemma values_snoc ds d l : (forall g, In g l -> g < length ds) -> values (ds ++ [d]) l = values ds l.
Proof.
  induction l as [|g l IH]; intros H; auto. unfold CacheSpec.values in *. simpl.
  rewrite IH by (intros; apply H; now right). rewrite nth_error_app1 by (apply H; now left). auto.
Qed.

Lemma CInv_add ds d k rn w :
  CInv ds k rn ->
  (forall o x, oldest ds = Some o -> nth_error ds o = Some x -> hash x = hash d ->
     match citer k with None => True | Some c => current ds c = true /\ c <> o end) ->
  CInv (ds ++ [d]) (mkcons (citer k) w (got k)) rn.
Proof.
  intros (H1 & H2 & H3 & H4) HG. repeat split; cbn [got citer].
  - rewrite values_snoc; auto. intros g Hg. apply H2. now apply in_rev.
  - intros g Hg. rewrite app_length. specialize (H2 g Hg). lia.
  - now apply keymono_snoc.
  - now apply placed_add.
Qed.

(** receiving the current value [j] *)
Lemma CInv_got ds k rn j d : CInv ds k rn -> nth_error ds j = Some d -> current ds j = true ->
  (forall j', unread ds rn j' -> j <= j') ->
  CInv ds (mkcons (Some j) false (got k ++ [d])) (j :: rn).
Proof.
  intros (H1 & H2 & H3 & H4) Ed Hc Hu. pose proof (current_lt _ _ Hc) as Hl. repeat split; cbn [got citer].
  - simpl. unfold CacheSpec.values in *. rewrite flat_map_app, H1. f_equal. simpl. now rewrite Ed.
  - intros g [<-|Hg]; auto.
  - intros h Hh E. destruct (Nat.le_gt_cases h j) as [|Hlt]; auto. exfalso.
    apply current_spec in Hc as [_ Hc].
    apply same_key_sym in E. rewrite Hc in E by auto. discriminate.
  - auto.
  - auto.
  - rewrite Hc. intros j' [Hj1 Hj2]. assert (j <> j') by (intros ->; apply Hj2; now left).
    assert (j <= j') by (apply Hu; split; auto; intros Hin; apply Hj2; now right). lia.
Qed.

(** one read of a consumer for which nothing has been lost so far *)
Lemma CInv_read ds c k rn : Rep ds c -> CInv ds k rn ->
  exists v it, get_latest c (citer k) = Ok (v, it) /\
  match v with
  | Some d => exists j, it = Some j /\ nth_error ds j = Some d /\ current ds j = true /\ CInv ds (mkcons it false (got k ++ [d])) (j :: rn)
  | None => it = citer k /\ forall j, current ds j = true -> In j rn
  end.
Proof.
  intros R HI. pose proof HI as (H1 & H2 & H3 & H4).
  destruct (citer k) as [c0|] eqn:Ec; [|].
  - destruct H4 as [Hl H4]. destruct (current ds c0) eqn:Hc.
    + rewrite (read_current ds c c0 R Hc). pose proof (proj1 (firsts ds) c0) as F.
      destruct (next_current ds c0) as [j|].
      * destruct F as (F1 & F2 & F3). destruct (nth_error ds j) as [d|] eqn:Ed; [|apply nth_error_None in Ed; lia].
        exists (Some d), (Some j). split; auto. exists j. split; [reflexivity|split; [auto|split; [auto|]]].
        apply CInv_got; auto. intros j' Hj'. specialize (H4 j' Hj').
        destruct (Nat.lt_ge_cases j' j); auto. destruct Hj' as [Hj' _]. rewrite F3 in Hj' by lia. discriminate.
      * exists None, (Some c0). split; auto. split; auto. intros j Hj.
        destruct (in_dec Nat.eq_dec j rn); auto. assert (Hu : unread ds rn j) by (split; auto).
        specialize (H4 j Hu). pose proof (current_lt _ _ Hj). simpl in F. rewrite F in Hj by lia. discriminate.
    + destruct H4 as (r & Hr & H4).
      destruct (read_stale ds c c0 R Hl Hc) as [(j & (r' & L1 & L2 & L3) & Hj & E)|[Ho _]].
      2:{ apply only_key_forward in Ho as (_ & _ & Ho). inversion Hr; subst; congruence. }
      pose proof (leads_fun ds c0 r r' Hr L1) as <-. rewrite E.
      pose proof (current_lt _ _ Hj) as Hjl.
      destruct (nth_error ds j) as [d|] eqn:Ed; [|apply nth_error_None in Ed; lia].
      exists (Some d), (Some j). split; auto. exists j. split; [reflexivity|split; [auto|split; [auto|]]].
      apply CInv_got; auto. intros j' Hj'. destruct (H4 j' Hj') as [K1 K2].
      destruct (ptr_eqb (oldest ds) (Some r)) eqn:Eo.
      * destruct (oldest ds) as [o|] eqn:Eo'; [|discriminate]. cbn in Eo. apply Nat.eqb_eq in Eo. subst o.
        specialize (K2 eq_refl). pose proof (proj1 (firsts ds) r) as F. rewrite L3 in F. destruct F as (F1 & F2 & F3).
        destruct (Nat.lt_ge_cases j' j); auto. destruct Hj' as [Hj' _]. rewrite F3 in Hj' by lia. discriminate.
      * subst j. auto.
  - rewrite (read_new ds c R). pose proof (proj2 (proj2 (firsts ds))) as F. destruct (oldest ds) as [o|].
    + destruct F as (F1 & F2 & F3). destruct (nth_error ds o) as [d|] eqn:Ed; [|apply nth_error_None in Ed; lia].
      exists (Some d), (Some o). split; auto. exists o. split; [reflexivity|split; [auto|split; [auto|]]].
      apply CInv_got; auto. intros j' [Hj' _]. destruct (Nat.lt_ge_cases j' o); auto.
      rewrite F3 in Hj' by lia. discriminate.
    + exists None, None. split; auto. split; auto. intros j Hj. pose proof (current_lt _ _ Hj).
      simpl in F. rewrite F in Hj by lia. discriminate.
Qed.

Lemma CInv_wait ds k rn w : CInv ds k rn -> CInv ds (mkcons (citer k) w (got k)) rn.
Proof. auto. Qed.

(** the view of a consumer that has received every current value is the latest of every key *)
Lemma rev_values ds l : rev (values ds l) = values ds (rev l).
Proof.
  induction l as [|g l IH]; auto. unfold CacheSpec.values in *. simpl. rewrite rev_app_distr, IH, flat_map_app. f_equal.
  simpl. rewrite app_nil_r. destruct (nth_error ds g); auto.
Qed.

Lemma last_with_mono ds rn k j d : keymono ds rn -> (forall g, In g rn -> g < length ds) ->
  In j rn -> current ds j = true -> nth_error ds j = Some d -> hash d = k ->
  find (fun x => keqb (hash x) k) (values ds rn) = Some d.
Proof.
  intros HM Hl Hin Hc Ed Ek. induction rn as [|g rn IH]; [easy|]. destruct HM as [M1 M2].
  assert (Hg : g < length ds) by (apply Hl; now left).
  destruct (nth_error ds g) as [x|] eqn:Ex; [|apply nth_error_None in Ex; lia].
  rewrite (values_cons ds g rn x Ex). simpl. destruct (keqb (hash x) k) eqn:E.
  - apply keqb_ok in E. destruct Hin as [<-|Hin]; [congruence|].
    assert (Hs : same_key ds j g = true) by (apply same_key_spec; exists d, x; repeat split; congruence).
    pose proof (M1 j Hin Hs). destruct (Nat.eq_dec j g) as [->|Hne]; [congruence|].
    apply current_spec in Hc as [_ Hc]. rewrite Hc in Hs by lia. discriminate.
  - destruct Hin as [->|Hin].
    + exfalso. apply not_true_iff_false in E. apply E, keqb_ok. congruence.
    + apply IH; auto. intros; apply Hl; now right.
Qed.

Lemma nth_error_rev_find (P : T -> bool) ds : 
  match find P (rev ds) with
  | Some d => exists j, nth_error ds j = Some d /\ P d = true /\ forall j' d', j < j' -> nth_error ds j' = Some d' -> P d' = false
  | None => forall j d, nth_error ds j = Some d -> P d = false
  end.
Proof.
  induction ds as [|a ds IH] using rev_ind; simpl.
  - intros [|j] d; discriminate.
  - rewrite rev_app_distr. simpl. destruct (P a) eqn:Ea.
    + exists (length ds). rewrite nth_error_snoc, Nat.eqb_refl. repeat split; auto.
      intros j' d' Hj E. rewrite nth_error_snoc in E. destruct (Nat.eqb_spec j' (length ds)); [lia|].
      assert (j' < length ds) by (apply nth_error_Some; congruence). lia.
    + destruct (find P (rev ds)) as [d|].
      * destruct IH as (j & E & H1 & H2). exists j.
        assert (j < length ds) by (apply nth_error_Some; congruence).
        rewrite nth_error_app1 by auto. repeat split; auto.
        intros j' d' Hj E'. rewrite nth_error_snoc in E'. destruct (Nat.eqb_spec j' (length ds)); [congruence|]. eauto.
      * intros j d E. rewrite nth_error_snoc in E. destruct (Nat.eqb_spec j (length ds)); [congruence|]. eauto.
Qed.

Lemma last_with_current ds k d : last_with hash keqb k ds = Some d <->
  exists j, current ds j = true /\ nth_error ds j = Some d /\ hash d = k.
Proof.
  unfold last_with. pose proof (nth_error_rev_find (fun d => keqb (hash d) k) ds) as F.
  split.
  - intros E. rewrite E in F. destruct F as (j & E1 & E2 & E3). apply keqb_ok in E2. exists j; repeat split; auto.
    apply current_spec. split; [apply nth_error_Some; congruence|]. intros j' Hj'. apply not_true_iff_false. intros Es.
    apply same_key_spec in Es as (x & y & S1 & S2 & S3). specialize (E3 j' y Hj' S2). apply not_true_iff_false in E3.
    apply E3, keqb_ok. congruence.
  - intros (j & Hc & Ed & Ek). destruct (find _ (rev ds)) as [d'|].
    + destruct F as (j' & E1 & E2 & E3). apply keqb_ok in E2.
      assert (j = j').
      { destruct (Nat.lt_trichotomy j j') as [H|[H|H]]; auto; exfalso.
        - apply current_spec in Hc as [_ Hc]. specialize (Hc j' H). apply not_true_iff_false in Hc.
          apply Hc, same_key_spec. exists d, d'. repeat split; auto; congruence.
        - specialize (E3 j d H Ed). apply not_true_iff_false in E3. apply E3, keqb_ok. congruence. }
      congruence.
    + specialize (F j d Ed). apply not_true_iff_false in F. exfalso. apply F, keqb_ok. congruence.
Qed.

Lemma view_latest ds k rn : CInv ds k rn -> (forall j, current ds j = true -> In j rn) ->
  forall key, last_with hash keqb key (got k) = last_with hash keqb key ds.
Proof.
  intros (H1 & H2 & H3 & H4) Hall key.
  destruct (last_with hash keqb key ds) as [d|] eqn:E.
  - apply last_with_current in E as (j & Hc & Ed & Ek).
    unfold last_with. rewrite H1, rev_values, rev_involutive.
    apply (last_with_mono ds rn key j d); auto.
  - unfold last_with. rewrite H1, rev_values, rev_involutive.
    destruct (find _ (values ds rn)) as [x|] eqn:Ef; auto.
    apply find_some in Ef as [Hin Hx]. apply keqb_ok in Hx.
    unfold CacheSpec.values in Hin. apply in_flat_map in Hin as (g & Hg & Hin).
    destruct (nth_error ds g) as [y|] eqn:Ey; [|easy]. destruct Hin as [->|[]].
    destruct (current_exists ds g x Ey) as (j & z & _ & K2 & K3 & K4).
    assert (last_with hash keqb key ds = Some z) by (apply last_with_current; exists j; repeat split; auto; congruence).
    congruence.
Qed.

(** ---- the whole system ---- *)

Lemma wake_nth (s : sys) i j :
  nth_error (consumers (wake (K := K) (T := T) s i)) j =
  match nth_error (consumers s) j with
  | Some k => Some (if i =? j then mkcons (citer k) false (got k) else k)
  | None => None
  end.
Proof.
  unfold wake, upd_consumer. destruct (nth_error (consumers s) i) as [k|] eqn:E; cbn [consumers].
  - rewrite nth_error_set_nth. assert (Hi : i < length (consumers s)) by (apply nth_error_Some; congruence).
    apply Nat.ltb_lt in Hi. rewrite Hi, andb_true_r. destruct (Nat.eqb_spec i j) as [->|]; [now rewrite E|].
    now destruct (nth_error (consumers s) j).
  - destruct (Nat.eqb_spec i j) as [->|]; [now rewrite E|]. now destruct (nth_error (consumers s) j).
Qed.

Lemma wake_shared (s : sys) i : shared (wake (K := K) (T := T) s i) = shared s.
Proof. unfold wake, upd_consumer. destruct (nth_error (consumers s) i); auto. Qed.

Lemma reach_rep n allow ds s : reach_with hash keqb n allow ds s -> Rep ds (shared s).
Proof.
  induction 1 as [|ds s e s' HR IH Ha He Hx]; [apply Rep_new|].
  destruct e as [d w|i|i]; cbn [exec] in Hx.
  - destruct (add_ok ds (shared s) d IH) as (c & E & R). rewrite E in Hx. cbn [bind] in Hx.
    injection Hx as <-. destruct w; rewrite ?wake_shared; auto.
  - destruct (rd (consumers s) i) as [k| | |]; try discriminate. cbn [bind] in Hx.
    destruct (get_latest (shared s) (citer k)) as [[v it]| | |]; try discriminate. cbn [bind] in Hx.
    injection Hx as <-. auto.
  - injection Hx as <-. rewrite wake_shared. auto.
Qed.

Lemma nth_error_repeat' {A} (a : A) n i x : nth_error (repeat a n) i = Some x -> x = a.
Proof. intros E. apply nth_error_In, repeat_spec in E. auto. Qed.

Lemma reach_CInv n i ds s : reach_with hash keqb n (oldest_kept hash keqb i) ds s ->
  forall k, nth_error (consumers s) i = Some k -> exists rn, CInv ds k rn.
Proof.
  induction 1 as [|ds s e s' HR IH Ha He Hx]; intros k Hk.
  - simpl in Hk. apply nth_error_repeat' in Hk. subst k. exists []. repeat split; simpl; auto. easy.
  - pose proof (reach_rep _ _ _ _ HR) as R. destruct e as [d w|j|j]; cbn [exec] in Hx.
    + destruct (add_latest hash keqb (shared s) d) as [c| | |]; try discriminate. cbn [bind] in Hx. injection Hx as <-.
      cbn [oldest_kept] in Ha.
      destruct w as [j|].
      * rewrite wake_nth in Hk. cbn [consumers] in Hk. destruct (nth_error (consumers s) i) as [k0|] eqn:E0; [|discriminate].
        destruct (IH k0 eq_refl) as [rn HI]. exists rn. injection Hk as <-.
        destruct (j =? i).
        -- apply CInv_add; auto. intros o x Eo Ex Eh. exact (Ha o x Eo Ex Eh k0 eq_refl).
        -- destruct k0 as [it w0 g]. apply (CInv_add ds d (mkcons it w0 g) rn w0); auto.
           intros o x Eo Ex Eh. exact (Ha o x Eo Ex Eh _ eq_refl).
      * cbn [consumers] in Hk. destruct (IH k Hk) as [rn HI]. exists rn.
        destruct k as [it w0 g]. apply (CInv_add ds d (mkcons it w0 g) rn w0); auto.
        intros o x Eo Ex Eh. exact (Ha o x Eo Ex Eh _ Hk).
    + unfold rd in Hx. destruct (nth_error (consumers s) j) as [kj|] eqn:Ej; try discriminate. cbn [bind] in Hx.
      destruct (get_latest (shared s) (citer kj)) as [[v it]| | |] eqn:Eg; try discriminate. cbn [bind] in Hx.
      injection Hx as <-. unfold upd_consumer in Hk. cbn [consumers] in Hk.
      destruct (Nat.eq_dec j i) as [->|Hji].
      * destruct (IH kj Ej) as [rn HI].
        rewrite nth_error_set_nth_eq in Hk by (apply nth_error_Some; congruence). injection Hk as <-.
        destruct (CInv_read ds (shared s) kj rn R HI) as (v' & it' & Eg' & HV).
        rewrite Eg in Eg'. injection Eg' as <- <-. destruct v as [d|].
        -- destruct HV as (q & _ & _ & _ & HV). exists (q :: rn). exact HV.
        -- destruct HV as [-> HV]. exists rn. now apply CInv_wait.
      * rewrite nth_error_set_nth_neq in Hk by auto. auto.
    + injection Hx as <-. rewrite wake_nth in Hk. destruct (nth_error (consumers s) i) as [k0|] eqn:E0; [|discriminate].
      destruct (IH k0 eq_refl) as [rn HI]. exists rn. injection Hk as <-. destruct (j =? i); auto; now apply CInv_wait.
Qed.

Lemma get_latest_none (c : @cache K T) it it' : get_latest c it = Ok (None, it') -> it' = it.
Proof.
  unfold get_latest. destruct it as [a|].
  - unfold grab_truth. destruct (ptr_eqb (chead c) (Some a)).
    + cbn [bind]. destruct (rd (nodes c) a) as [n| | |]; cbn [bind]; try discriminate.
      destruct (nxt n) as [b|]; [|congruence]. destruct (rd (nodes c) b); cbn [bind]; discriminate.
    + destruct (rd (nodes c) a) as [n| | |] eqn:E; cbn [bind]; try discriminate.
      destruct (prv n) as [p|] eqn:Ep.
      * cbn [skip_broken]. rewrite E. cbn [bind]. rewrite Ep. cbn [bind]. rewrite E. cbn [bind].
        destruct (nxt n) as [b|]; [|congruence]. destruct (rd (nodes c) b); cbn [bind]; discriminate.
      * destruct (skip_broken _ c (Some a)) as [a'| | |]; cbn [bind]; try discriminate.
        destruct (rd (nodes c) a'); cbn [bind]; discriminate.
  - destruct (chead c) as [h|]; [|congruence]. destruct (rd (nodes c) h); cbn [bind]; discriminate.
Qed.

Lemma reach_len n allow ds s : reach_with hash keqb n allow ds s -> length (consumers s) = n.
Proof.
  induction 1 as [|ds s e s' HR IH Ha He Hx]; [simpl; now rewrite repeat_length|].
  assert (W : forall s' i, length (consumers (wake (K := K) (T := T) s' i)) = length (consumers s')).
  { intros s0 i. unfold wake, upd_consumer. destruct (nth_error _ _); auto. cbn. apply length_set_nth. }
  destruct e as [d w|i|i]; cbn [exec] in Hx.
  - destruct (add_latest hash keqb (shared s) d); try discriminate. cbn [bind] in Hx.
    injection Hx as <-. destruct w; rewrite ?W; auto.
  - destruct (rd (consumers s) i) as [k| | |]; try discriminate. cbn [bind] in Hx.
    destruct (get_latest (shared s) (citer k)) as [[v it]| | |]; try discriminate. cbn [bind] in Hx.
    injection Hx as <-. cbn. now rewrite length_set_nth.
  - injection Hx as <-. now rewrite W.
Qed.

Lemma sleeps_caught_up allow ds s k : reach_with hash keqb 1 allow ds s -> nth_error (consumers s) 0 = Some k ->
  waiting k = true -> get_latest (shared s) (citer k) = Ok (None, citer k).
Proof.
  intros H. revert k. induction H as [|ds s e s' HR IH Ha He Hx]; intros k Hk Hw.
  - simpl in Hk. injection Hk as <-. discriminate.
  - pose proof (reach_len _ _ _ _ HR) as Hlen.
    destruct e as [d w|i|i]; cbn [exec enabled] in Hx, He.
    + destruct (add_latest hash keqb (shared s) d); try discriminate. cbn [bind] in Hx. injection Hx as <-.
      destruct w as [j|].
      * destruct He as (kj & Ej & Hj). assert (j < length (consumers s)) by (apply nth_error_Some; congruence).
        assert (j = 0) by lia. subst j. rewrite wake_nth in Hk. cbn [consumers] in Hk. rewrite Ej in Hk.
        injection Hk as <-. discriminate.
      * cbn [consumers] in Hk. apply nth_error_In in Hk. rewrite (He k Hk) in Hw. discriminate.
    + unfold rd in Hx. destruct (nth_error (consumers s) i) as [kj|] eqn:Ej; try discriminate. cbn [bind] in Hx.
      assert (i < length (consumers s)) by (apply nth_error_Some; congruence). assert (i = 0) by lia. subst i.
      destruct (get_latest (shared s) (citer kj)) as [[v it]| | |] eqn:Eg; try discriminate. cbn [bind] in Hx.
      injection Hx as <-. cbn [upd_consumer consumers shared] in *. rewrite nth_error_set_nth_eq in Hk by lia.
      injection Hk as <-. destruct v as [d|]; [discriminate|]. cbn [citer].
      pose proof (get_latest_none _ _ _ Eg) as ->. exact Eg.
    + injection Hx as <-. destruct He as (kj & Ej & Hj).
      assert (i < length (consumers s)) by (apply nth_error_Some; congruence). assert (i = 0) by lia. subst i.
      rewrite wake_nth, Ej in Hk. injection Hk as <-. discriminate.
Qed.

(** executing a list of events, for the examples *)
Definition enabledb (s : @sys K T) (e : @event T) : bool :=
  match e with
  | Add _ (Some i) | Wake i => match nth_error (consumers s) i with Some k => waiting k | None => false end
  | Add _ None => forallb (fun k => negb (waiting k)) (consumers s)
  | Read i => match nth_error (consumers s) i with Some k => negb (waiting k) | None => false end
  end.
Fixpoint runs (ds : list T) (s : @sys K T) (es : list event) : res (list T * sys) :=
  match es with
  | [] => Ok (ds, s)
  | e :: es' => if enabledb s e then s' <- exec hash keqb s e ;; runs (match e with Add d _ => ds ++ [d] | _ => ds end) s' es' else Throw
  end.
Lemma enabledb_ok s e : enabledb s e = true -> enabled s e.
Proof.
  destruct e as [d [i|]|i|i]; simpl.
  - destruct (nth_error _ _) as [k|]; [eauto|discriminate].
  - rewrite forallb_forall. intros H k Hk. apply H in Hk. now apply negb_true_iff.
  - destruct (nth_error _ _) as [k|]; [|discriminate]. intros H. apply negb_true_iff in H. eauto.
  - destruct (nth_error _ _) as [k|]; [eauto|discriminate].
Qed.
Lemma runs_reach n es : forall ds s ds' s', reach_with hash keqb n anything ds s -> runs ds s es = Ok (ds', s') ->
  reach_with hash keqb n anything ds' s'.
Proof.
  induction es as [|e es IH]; intros ds s ds' s' HR E; simpl in E.
  - injection E as <- <-. auto.
  - destruct (enabledb s e) eqn:He; [|discriminate]. destruct (exec hash keqb s e) as [s1| | |] eqn:Ex; try discriminate.
    cbn [bind] in E. eapply IH; [|exact E]. eapply rw_step; eauto. exact I. now apply enabledb_ok.
Qed.

End Proofs.
