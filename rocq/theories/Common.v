(** Outcomes, buffers and loops shared by every model file. *)
From Coq Require Export List Arith Lia Bool.
Export ListNotations.

(** Outcome of a C++ call: normal result, exception, failed assert, undefined
    behaviour (out-of-bounds access, null dereference, use after free, division
    by zero). *)
Inductive res (A : Type) : Type :=
| Ok (a : A)
| Throw
| Abort
| UB.
Arguments Ok {A} a.
Arguments Throw {A}.
Arguments Abort {A}.
Arguments UB {A}.

Definition bind {A B} (x : res A) (f : A -> res B) : res B :=
  match x with
  | Ok a => f a
  | Throw => Throw
  | Abort => Abort
  | UB => UB
  end.
Notation "x <- e ;; k" := (bind e (fun x => k))
  (at level 61, e at next level, right associativity).

(** Reading [buf[i]] through a raw pointer or vector::operator[]. *)
Definition rd {A} (buf : list A) (i : nat) : res A :=
  match nth_error buf i with
  | Some x => Ok x
  | None => UB
  end.

Fixpoint set_nth {A} (i : nat) (v : A) (l : list A) : list A :=
  match l, i with
  | [], _ => []
  | _ :: t, 0 => v :: t
  | h :: t, S i' => h :: set_nth i' v t
  end.

(** Writing [buf[i] = v]. *)
Definition wr {A} (buf : list A) (i : nat) (v : A) : res (list A) :=
  if i <? length buf then Ok (set_nth i v buf) else UB.

(** [for (i = start; i < start + n; i++) body] *)
Fixpoint forloop {S : Type} (n i : nat) (body : nat -> S -> res S) (s : S) : res S :=
  match n with
  | 0 => Ok s
  | Datatypes.S n' => s' <- body i s ;; forloop n' (Datatypes.S i) body s'
  end.

Definition for_ {S : Type} (n : nat) (body : nat -> S -> res S) (s : S) : res S :=
  forloop n 0 body s.

(** C++ [assert]. *)
Definition assert_ (b : bool) : res unit := if b then Ok tt else Abort.

(** ---- lemmas ---- *)

Lemma length_set_nth {A} i (v : A) l : length (set_nth i v l) = length l.
Proof. revert i; induction l as [|h t IH]; intros [|i]; simpl; auto. Qed.

Lemma nth_error_set_nth_eq {A} i (v : A) l :
  i < length l -> nth_error (set_nth i v l) i = Some v.
Proof.
  revert i; induction l as [|h t IH]; intros [|i] H; simpl in *; try lia; auto.
  apply IH; lia.
Qed.

Lemma nth_error_set_nth_neq {A} i j (v : A) l :
  i <> j -> nth_error (set_nth i v l) j = nth_error l j.
Proof.
  revert i j; induction l as [|h t IH]; intros [|i] [|j] H; simpl; auto; try lia.
Qed.

Lemma nth_error_set_nth {A} i j (v : A) l :
  nth_error (set_nth i v l) j =
  if (i =? j) && (i <? length l) then Some v else nth_error l j.
Proof.
  destruct (Nat.eqb_spec i j) as [->|Hne]; simpl.
  - destruct (Nat.ltb_spec j (length l)).
    + now apply nth_error_set_nth_eq.
    + rewrite (proj2 (nth_error_None l j)) by lia.
      apply nth_error_None. rewrite length_set_nth; lia.
  - now apply nth_error_set_nth_neq.
Qed.

Lemma rd_ok {A} (buf : list A) i x : nth_error buf i = Some x -> rd buf i = Ok x.
Proof. unfold rd; now intros ->. Qed.

Lemma rd_Ok_inv {A} (buf : list A) i x : rd buf i = Ok x -> nth_error buf i = Some x.
Proof. unfold rd; destruct (nth_error buf i); congruence. Qed.

Lemma rd_lt {A} (buf : list A) i : i < length buf -> exists x, nth_error buf i = Some x /\ rd buf i = Ok x.
Proof.
  intros H. destruct (nth_error buf i) as [x|] eqn:E.
  - exists x; split; auto; now apply rd_ok.
  - apply nth_error_None in E; lia.
Qed.

Lemma wr_ok {A} (buf : list A) i v :
  i < length buf -> wr buf i v = Ok (set_nth i v buf).
Proof. intros H; unfold wr. apply Nat.ltb_lt in H. now rewrite H. Qed.

Lemma forloop_inv {S} (P : nat -> S -> Prop) (body : nat -> S -> res S) n :
  forall i s,
    P i s ->
    (forall j s, i <= j < i + n -> P j s -> exists s', body j s = Ok s' /\ P (Datatypes.S j) s') ->
    exists s', forloop n i body s = Ok s' /\ P (i + n) s'.
Proof.
  induction n as [|n IH]; intros i s HP Hstep; simpl.
  - exists s; split; auto. now rewrite Nat.add_0_r.
  - destruct (Hstep i s) as [s' [E HP']]; [lia|auto|].
    rewrite E; simpl.
    destruct (IH (Datatypes.S i) s') as [s'' [E' HP'']]; auto.
    + intros j t Hj; apply Hstep; lia.
    + exists s''; split; auto. now replace (i + Datatypes.S n) with (Datatypes.S i + n) by lia.
Qed.

Lemma for_inv {S} (P : nat -> S -> Prop) (body : nat -> S -> res S) n s :
  P 0 s ->
  (forall j s, j < n -> P j s -> exists s', body j s = Ok s' /\ P (Datatypes.S j) s') ->
  exists s', for_ n body s = Ok s' /\ P n s'.
Proof.
  intros H0 Hs. apply (forloop_inv P body n 0 s H0).
  intros j t Hj; apply Hs; lia.
Qed.

Lemma forloop_ext {S} (f g : nat -> S -> res S) n :
  forall i s, (forall j t, i <= j < i + n -> f j t = g j t) ->
  forloop n i f s = forloop n i g s.
Proof.
  induction n as [|n IH]; intros i s H; simpl; auto.
  rewrite H by lia. destruct (g i s); simpl; auto.
  apply IH; intros; apply H; lia.
Qed.

Lemma for_ext {S} (f g : nat -> S -> res S) n s :
  (forall j t, j < n -> f j t = g j t) -> for_ n f s = for_ n g s.
Proof. intros; apply forloop_ext; intros; apply H; lia. Qed.

Lemma forloop_app {S} (f : nat -> S -> res S) n m :
  forall i s, forloop (n + m) i f s = bind (forloop n i f s) (forloop m (i + n) f).
Proof.
  induction n as [|n IH]; intros i s; simpl.
  - now rewrite Nat.add_0_r.
  - destruct (f i s); simpl; auto. rewrite IH.
    now replace (Datatypes.S i + n) with (i + Datatypes.S n) by lia.
Qed.

Lemma for_succ {S} (f : nat -> S -> res S) n s :
  for_ (Datatypes.S n) f s = bind (for_ n f s) (f n).
Proof.
  unfold for_. replace (Datatypes.S n) with (n + 1) by lia.
  rewrite forloop_app. destruct (forloop n 0 f s); simpl; auto.
  destruct (f n a); auto.
Qed.

Lemma for_exit {S} (f : nat -> S -> res S) n k s s1 o :
  k < n -> for_ k f s = Ok s1 -> f k s1 = o ->
  (forall x, o <> Ok x) -> for_ n f s = o.
Proof.
  intros Hk H1 H2 Ho. unfold for_ in *.
  replace n with (k + (n - k)) by lia. rewrite forloop_app, H1. simpl.
  destruct (n - k) as [|r] eqn:E; [lia|]. simpl. rewrite H2.
  destruct o; simpl; auto. now destruct (Ho a).
Qed.

Lemma nth_error_ext {A} (l1 l2 : list A) :
  (forall i, nth_error l1 i = nth_error l2 i) -> l1 = l2.
Proof.
  revert l2; induction l1 as [|a t IH]; intros [|b u] H; auto.
  - specialize (H 0); discriminate.
  - specialize (H 0); discriminate.
  - f_equal.
    + specialize (H 0); simpl in H; congruence.
    + apply IH; intros i; apply (H (S i)).
Qed.

Lemma nth_error_ext_lt {A} (l1 l2 : list A) :
  length l1 = length l2 ->
  (forall i, i < length l1 -> nth_error l1 i = nth_error l2 i) -> l1 = l2.
Proof.
  intros Hl H. apply nth_error_ext; intros i.
  destruct (Nat.lt_ge_cases i (length l1)) as [Hi|Hi]; auto.
  rewrite (proj2 (nth_error_None l1 i)) by lia.
  symmetry; apply nth_error_None; lia.
Qed.

Lemma nth_error_lt {A} (l : list A) i x : nth_error l i = Some x -> i < length l.
Proof. intros H; apply nth_error_Some; congruence. Qed.

Lemma nth_error_nth_some {A} (l : list A) i d : i < length l -> nth_error l i = Some (nth i l d).
Proof. intros; now apply nth_error_nth'. Qed.

Lemma nth_error_repeat {A} (x : A) n i : i < n -> nth_error (repeat x n) i = Some x.
Proof.
  revert i; induction n as [|n IH]; intros [|i] H; simpl; try lia; auto. apply IH; lia.
Qed.

Lemma nth_error_map_iff {A B} (f : A -> B) l i :
  nth_error (map f l) i = option_map f (nth_error l i).
Proof. revert l; induction i as [|i IH]; intros [|a l]; simpl; auto. Qed.

Lemma nth_error_seq i s n : i < n -> nth_error (seq s n) i = Some (s + i).
Proof.
  intros H. rewrite (nth_error_nth' _ 0) by now rewrite seq_length.
  now rewrite seq_nth.
Qed.
