(** Lemmas about the block memory and about loops that scatter values into it. *)
From Verif Require Import Common MemModel TransformProofs.

Section M.
Context {T : Type} (d : T).
Notation mem := (mem T).

Definition get (m : mem) (p : ptr) : T := nth (snd p) (nth (fst p) m []) d.
Definition lay (m : mem) : list nat := map (@length T) m.
Definition valid (m : mem) (p : ptr) : Prop := snd p < nth (fst p) (lay m) 0.
Definition put (m : mem) (p : ptr) (v : T) : mem := set_nth (fst p) (set_nth (snd p) v (nth (fst p) m [])) m.

Lemma nth_lay m b : nth b (lay m) 0 = length (nth b m []).
Proof. unfold lay. change 0 with (length (@nil T)). apply map_nth. Qed.

Lemma valid_block m p : valid m p -> fst p < length m.
Proof.
  unfold valid. intros H. destruct (Nat.lt_ge_cases (fst p) (length m)); auto.
  rewrite nth_overflow in H; [lia|]. unfold lay. now rewrite map_length.
Qed.

Lemma rdp_ok m p : valid m p -> rdp m p = Ok (get m p).
Proof.
  intros H. pose proof (valid_block m p H). unfold valid in H. rewrite nth_lay in H. unfold rdp, get.
  rewrite (rd_nth m (fst p) []) by auto. cbn [bind]. now apply rd_nth.
Qed.

Lemma wrp_ok m p v : valid m p -> wrp m p v = Ok (put m p v).
Proof.
  intros H. pose proof (valid_block m p H). unfold valid in H. rewrite nth_lay in H. unfold wrp, put.
  rewrite (rd_nth m (fst p) []) by auto. cbn [bind]. rewrite wr_ok by auto. cbn [bind]. now apply wr_ok.
Qed.

Lemma lay_put m p v : lay (put m p v) = lay m.
Proof.
  unfold lay, put. apply (nth_ext _ _ 0 0); rewrite ?map_length, length_set_nth; auto. intros b Hb.
  change 0 with (length (@nil T)). rewrite !map_nth, nth_set_nth.
  destruct (Nat.eqb_spec (fst p) b) as [<-|]; cbn [andb]; auto.
  destruct (fst p <? length m); auto. apply length_set_nth.
Qed.

Lemma valid_lay m m' p : lay m = lay m' -> valid m p -> valid m' p.
Proof. unfold valid. now intros ->. Qed.

Lemma get_put_eq m p v : valid m p -> get (put m p v) p = v.
Proof.
  intros H. pose proof (valid_block m p H) as Hb. unfold valid in H. rewrite nth_lay in H. unfold get, put.
  rewrite nth_set_nth, Nat.eqb_refl. destruct (Nat.ltb_spec (fst p) (length m)); [|lia]. cbn [andb].
  rewrite nth_set_nth, Nat.eqb_refl. destruct (Nat.ltb_spec (snd p) (length (nth (fst p) m []))); [auto|lia].
Qed.

Lemma get_put_neq m p q v : p <> q -> get (put m p v) q = get m q.
Proof.
  intros Hne. unfold get, put. rewrite nth_set_nth. destruct (Nat.eqb_spec (fst p) (fst q)) as [E|]; cbn [andb]; auto.
  destruct (fst p <? length m); auto. rewrite nth_set_nth. destruct (Nat.eqb_spec (snd p) (snd q)) as [E2|].
  - exfalso. apply Hne. destruct p, q; cbn in *; congruence.
  - cbn [andb]. now rewrite E.
Qed.

Lemma put_put m p v w : put (put m p v) p w = put m p w.
Proof.
  unfold put. rewrite set_nth_set_nth. rewrite nth_set_nth, Nat.eqb_refl. cbn [andb].
  destruct (Nat.ltb_spec (fst p) (length m)).
  - now rewrite set_nth_set_nth.
  - assert (E : forall A i (x y : A) l, length l <= i -> set_nth i x l = set_nth i y l).
    { clear. intros A i x y l. revert i. induction l as [|h t IH]; intros [|i] H; cbn in *; auto; try lia. f_equal. apply IH. lia. }
    now apply E.
Qed.

Lemma ptr_eq_dec (p q : ptr) : {p = q} + {p <> q}.
Proof. repeat decide equality. Qed.

(** several writes *)
Definition puts (m : mem) (ws : list (ptr * T)) : mem := fold_left (fun m w => put m (fst w) (snd w)) ws m.

Lemma puts_cons m w ws : puts m (w :: ws) = puts (put m (fst w) (snd w)) ws.
Proof. reflexivity. Qed.

Lemma lay_puts ws : forall m, lay (puts m ws) = lay m.
Proof. induction ws as [|w ws IH]; intros m; auto. now rewrite puts_cons, IH, lay_put. Qed.

Lemma get_puts_out ws p : forall m, ~ In p (map fst ws) -> get (puts m ws) p = get m p.
Proof.
  induction ws as [|w ws IH]; intros m H; auto. rewrite puts_cons. cbn [map] in H.
  rewrite IH by (intros C; apply H; now right). apply get_put_neq. intros C. apply H. now left.
Qed.

Lemma get_puts_in ws p v : forall m, valid m p -> In (p, v) ws ->
  (forall w, In (p, w) ws -> w = v) -> get (puts m ws) p = v.
Proof.
  induction ws as [|[q u] ws IH]; intros m Hv Hin Hc; [destruct Hin|]. rewrite puts_cons. cbn [fst snd].
  destruct (in_dec ptr_eq_dec p (map fst ws)) as [Hi|Hn].
  - apply in_map_iff in Hi. destruct Hi as [[p' w] [E Hw]]. cbn in E. subst p'.
    assert (w = v) by (apply Hc; now right). subst w. apply IH; auto.
    + apply (valid_lay m); auto. now rewrite lay_put.
    + intros x Hx. apply Hc. now right.
  - rewrite get_puts_out by auto. destruct Hin as [E|Hin].
    + injection E as -> ->. now apply get_put_eq.
    + exfalso. apply Hn. apply in_map_iff. now exists (p, v).
Qed.

(** A loop whose iteration [i] performs exactly the writes [W i], reading only cells that
    earlier iterations did not write. *)
Lemma for_scatter n (body : nat -> mem -> res mem) (W : nat -> list (ptr * T)) m0 :
  (forall i m, i < n -> lay m = lay m0 ->
     (forall p, (forall j, j < i -> ~ In p (map fst (W j))) -> get m p = get m0 p) ->
     body i m = Ok (puts m (W i))) ->
  (forall i p v, i < n -> In (p, v) (W i) -> valid m0 p) ->
  (forall i j p v w, i < n -> j < n -> In (p, v) (W i) -> In (p, w) (W j) -> v = w) ->
  exists m', for_ n body m0 = Ok m' /\ lay m' = lay m0 /\
    (forall i p v, i < n -> In (p, v) (W i) -> get m' p = v) /\
    (forall p, (forall i, i < n -> ~ In p (map fst (W i))) -> get m' p = get m0 p).
Proof.
  intros Hb Hv Hc.
  apply (for_inv (fun k m => lay m = lay m0 /\
    (forall i p v, i < k -> In (p, v) (W i) -> get m p = v) /\
    (forall p, (forall i, i < k -> ~ In p (map fst (W i))) -> get m p = get m0 p))).
  - split; auto. split; auto. intros; lia.
  - intros k m Hk [L [H1 H2]]. rewrite Hb by auto. eexists. split; [reflexivity|].
    split; [now rewrite lay_puts|]. split.
    + intros i p v Hi Hin. destruct (in_dec ptr_eq_dec p (map fst (W k))) as [Hi2|Hn].
      * apply in_map_iff in Hi2. destruct Hi2 as [[p' w] [E Hw]]. cbn in E. subst p'.
        assert (w = v) by (apply (Hc k i p w v); auto; lia). subst w.
        apply get_puts_in; auto.
        -- apply (valid_lay m0); auto. now apply (Hv k p v).
        -- intros x Hx. now apply (Hc k k p x v).
      * rewrite get_puts_out by auto. destruct (Nat.eq_dec i k) as [->|].
        -- exfalso. apply Hn. apply in_map_iff. now exists (p, v).
        -- apply (H1 i); auto. lia.
    + intros p Hp. rewrite get_puts_out by (apply Hp; lia). apply H2. intros i Hi. apply Hp. lia.
Qed.

Lemma forloop_flat {S} n k (f : nat -> nat -> S -> res S) : 0 < k -> forall i s,
  forloop n i (fun x s => for_ k (fun y s => f x y s) s) s =
  forloop (n * k) (i * k) (fun j s => f (j / k) (j mod k) s) s.
Proof.
  intros Hk. induction n as [|n IH]; intros i s; [reflexivity|].
  change (Datatypes.S n * k) with (k + n * k). rewrite forloop_app. cbn [forloop]. unfold for_.
  assert (E : forloop k 0 (fun y s => f i y s) s = forloop k (i * k) (fun j s => f (j / k) (j mod k) s) s).
  { assert (G : forall r o s, o + r = k -> forloop r o (fun y s => f i y s) s = forloop r (i * k + o) (fun j s => f (j / k) (j mod k) s) s).
    { induction r as [|r IHr]; intros o s0 Ho; [reflexivity|]. cbn [forloop].
      assert ((i * k + o) / k = i) as ->. { rewrite Nat.add_comm, Nat.div_add by lia. rewrite Nat.div_small by lia. lia. }
      assert ((i * k + o) mod k = o) as ->. { rewrite Nat.add_comm, Nat.mod_add by lia. apply Nat.mod_small. lia. }
      destruct (f i o s0); cbn [bind]; auto. rewrite IHr by lia. f_equal. lia. }
    rewrite (G k 0 s) by lia. f_equal. lia. }
  rewrite E. destruct (forloop k (i * k) _ s); cbn [bind]; auto.
  unfold for_ in IH. rewrite IH. f_equal. lia.
Qed.

(** the same for two nested loops *)
Lemma for2_scatter n k (body : nat -> nat -> mem -> res mem) (W : nat -> nat -> list (ptr * T)) m0 :
  (forall x y m, x < n -> y < k -> lay m = lay m0 ->
     (forall p, (forall x' y', x' < n -> y' < k -> (x', y') <> (x, y) -> ~ In p (map fst (W x' y'))) -> get m p = get m0 p) ->
     body x y m = Ok (puts m (W x y))) ->
  (forall x y p v, x < n -> y < k -> In (p, v) (W x y) -> valid m0 p) ->
  (forall x y x' y' p v w, x < n -> y < k -> x' < n -> y' < k ->
     In (p, v) (W x y) -> In (p, w) (W x' y') -> v = w) ->
  exists m', for_ n (fun x m => for_ k (fun y m => body x y m) m) m0 = Ok m' /\ lay m' = lay m0 /\
    (forall x y p v, x < n -> y < k -> In (p, v) (W x y) -> get m' p = v) /\
    (forall p, (forall x y, x < n -> y < k -> ~ In p (map fst (W x y))) -> get m' p = get m0 p).
Proof.
  intros Hb Hv Hc. destruct (Nat.eq_dec k 0) as [->|Hk].
  - assert (E : for_ n (fun x m => for_ 0 (fun y m => body x y m) m) m0 = Ok m0).
    { destruct (for_inv (fun _ m => m = m0) (fun x m => for_ 0 (fun y m => body x y m) m) n m0) as [s [E ->]]; auto.
      intros j s _ ->. exists m0. split; reflexivity. }
    exists m0. split; auto. split; auto. split; [intros; lia|auto].
  - assert (Hpos : 0 < k) by lia. unfold for_ at 1. rewrite forloop_flat by auto. rewrite Nat.mul_0_l. fold (@for_ mem).
    assert (D : forall i, i < n * k -> i / k < n /\ i mod k < k).
    { intros i Hi. split; [apply Nat.div_lt_upper_bound; lia|apply Nat.mod_upper_bound; lia]. }
    destruct (for_scatter (n * k) (fun j m => body (j / k) (j mod k) m) (fun j => W (j / k) (j mod k)) m0) as [m' [E [L [H1 H2]]]].
    + intros i m Hi HL Hg. apply Hb; auto; try apply D; auto. intros p Hp. apply Hg. intros j Hj.
      apply Hp; try apply D; try lia. intros C. injection C as C1 C2.
      assert (j = i). { rewrite (Nat.div_mod j k), (Nat.div_mod i k) by lia. congruence. } lia.
    + intros i p v Hi. apply Hv; now apply D.
    + intros i j p v w Hi Hj. apply Hc; now apply D.
    + exists m'. split; auto. split; auto.
      assert (B : forall x y, x < n -> y < k -> x * k + y < n * k /\ (x * k + y) / k = x /\ (x * k + y) mod k = y).
      { intros x y Hx Hy. split; [nia|]. split.
        - rewrite Nat.add_comm, Nat.div_add by lia. rewrite Nat.div_small by lia. lia.
        - rewrite Nat.add_comm, Nat.mod_add by lia. apply Nat.mod_small. lia. }
      split.
      * intros x y p v Hx Hy Hin. destruct (B x y Hx Hy) as [B1 [B2 B3]]. apply (H1 (x * k + y)); auto. now rewrite B2, B3.
      * intros p Hp. apply H2. intros i Hi. apply Hp; now apply D.
Qed.
End M.

(** cells of a buffer region *)
Definition inr (p0 : ptr) (n : nat) (p : ptr) : Prop := exists i, i < n /\ p = padd p0 i.
(** two regions share no cell *)
Definition apart (p : ptr) (n : nat) (q : ptr) (k : nat) : Prop :=
  forall i j, i < n -> j < k -> padd p i <> padd q j.
(** the region exists in memory *)
Definition rvalid {T} (m : mem T) (p : ptr) (n : nat) : Prop := forall i, i < n -> valid m (padd p i).

Lemma rvalid_valid {T} (m : mem T) p n k : rvalid m p n -> k < n -> valid m (padd p k).
Proof. auto. Qed.

Lemma padd_padd p a b : padd (padd p a) b = padd p (a + b).
Proof. unfold padd. cbn. f_equal. lia. Qed.
Lemma padd_inj p a b : padd p a = padd p b -> a = b.
Proof. unfold padd. intros H. injection H. lia. Qed.
Lemma padd_0 p : padd p 0 = p.
Proof. destruct p. unfold padd. cbn. f_equal. lia. Qed.

Lemma rvalid_sub {T} (m : mem T) p n a k : rvalid m p n -> a + k <= n -> rvalid m (padd p a) k.
Proof. intros H L i Hi. rewrite padd_padd. apply H. lia. Qed.
Lemma rvalid_lay {T} (m m' : mem T) p n : lay m = lay m' -> rvalid m p n -> rvalid m' p n.
Proof. intros E H i Hi. apply (valid_lay m); auto. Qed.

Lemma apart_sym p n q k : apart p n q k -> apart q k p n.
Proof. intros H i j Hi Hj C. apply (H j i); auto. Qed.
Lemma apart_sub p n q k a n' b k' : apart p n q k -> a + n' <= n -> b + k' <= k -> apart (padd p a) n' (padd q b) k'.
Proof. intros H L1 L2 i j Hi Hj. rewrite !padd_padd. apply H; lia. Qed.
Lemma apart_same p a n b k : a + n <= b \/ b + k <= a -> apart (padd p a) n (padd p b) k.
Proof. intros L i j Hi Hj C. rewrite !padd_padd in C. apply padd_inj in C. lia. Qed.
Lemma apart_block p n q k : fst p <> fst q -> apart p n q k.
Proof. intros H i j _ _ C. apply H. unfold padd in C. congruence. Qed.
Lemma inr_apart p n q k x : apart p n q k -> inr p n x -> ~ inr q k x.
Proof. intros H [i [Hi ->]] [j [Hj E]]. now apply (H i j). Qed.
Lemma inr_sub p n a k x : a + k <= n -> inr (padd p a) k x -> inr p n x.
Proof. intros L [i [Hi ->]]. exists (a + i). split; [lia|apply padd_padd]. Qed.
Lemma inr_padd p n i : i < n -> inr p n (padd p i).
Proof. intros H. now exists i. Qed.
