(** Specification vocabulary for shapes: mixed-radix positions.
    Dimension 0 varies fastest in storage, as documented for tensorshape. *)
From Coq Require Import NArith.
From Verif Require Import Common.

(** number of elements of a dimension list *)
Fixpoint prod (s : list nat) : nat :=
  match s with
  | [] => 1
  | d :: ds => d * prod ds
  end.

(** the same for 64-bit dimensions, computed without bound *)
Fixpoint prodN (s : list N) : N :=
  match s with
  | [] => 1%N
  | d :: ds => (d * prodN ds)%N
  end.

(** a usable shape: at least one dimension, no unknown (0) dimension *)
Definition defined (s : list nat) : Prop := s <> [] /\ Forall (fun d => 0 < d) s.

(** coordinate inside every dimension, and of the same rank *)
Definition in_bounds (s c : list nat) : Prop := Forall2 (fun d x => x < d) s c.

(** storage offset of a coordinate *)
Fixpoint offset (s c : list nat) : nat :=
  match s, c with
  | d :: ds, x :: xs => x + d * offset ds xs
  | _, _ => 0
  end.

(** coordinate stored at an offset *)
Fixpoint coords (s : list nat) (i : nat) : list nat :=
  match s with
  | [] => []
  | d :: ds => i mod d :: coords ds (i / d)
  end.

(** a coordinate lies inside shape [s], missing dimensions of [s] counting as 1 and
    missing entries of [c] as 0 *)
Definition belongs (s c : list nat) : Prop := forall k, nth k c 0 < nth k s 1.

(** the same as a test *)
Definition belongsb (s c : list nat) : bool :=
  forallb (fun k => nth k c 0 <? nth k s 1) (seq 0 (Nat.max (length s) (length c))).

(** ---- facts ---- *)

Lemma prod_pos s : Forall (fun d => 0 < d) s -> 0 < prod s.
Proof. induction 1; simpl; [lia|]. apply Nat.mul_pos_pos; auto. Qed.

Lemma prod_app a b : prod (a ++ b) = prod a * prod b.
Proof. induction a as [|x a IH]; simpl; [lia|]. rewrite IH; ring. Qed.

Lemma prod_repeat_1 n : prod (repeat 1 n) = 1.
Proof. induction n; simpl; lia. Qed.

Lemma in_bounds_length s c : in_bounds s c -> length c = length s.
Proof. intros H. symmetry. induction H; simpl; lia. Qed.

Lemma in_bounds_nth s c :
  in_bounds s c <->
  (length c = length s /\ forall k, k < length s -> nth k c 0 < nth k s 0).
Proof.
  split.
  - induction 1 as [|d x s c Hx H IH]; simpl.
    + split; auto. intros; lia.
    + destruct IH as [IHl IH]. split; [lia|].
      intros [|k] Hk; auto. apply IH; lia.
  - revert c; induction s as [|d s IH]; intros [|x c] [Hl H]; simpl in *; try lia.
    + constructor.
    + constructor; [apply (H 0); lia|]. apply IH; split; [lia|].
      intros k Hk; apply (H (S k)); lia.
Qed.

Lemma offset_lt s c : in_bounds s c -> offset s c < prod s.
Proof.
  induction 1 as [|d x s c Hx H IH]; simpl; [lia|].
  apply Nat.lt_le_trans with (d + d * offset s c); [lia|].
  replace (d + d * offset s c) with (d * S (offset s c)) by lia.
  apply Nat.mul_le_mono_l; lia.
Qed.

Lemma coords_length s i : length (coords s i) = length s.
Proof. revert i; induction s; intros; simpl; auto. Qed.

Lemma coords_in_bounds s i : Forall (fun d => 0 < d) s -> in_bounds s (coords s i).
Proof.
  intros H; revert i; induction H as [|d s Hd H IH]; intros i; simpl; constructor.
  - apply Nat.mod_upper_bound; lia.
  - apply IH.
Qed.

Lemma offset_coords s i :
  Forall (fun d => 0 < d) s -> offset s (coords s i) = i mod prod s.
Proof.
  intros H; revert i; induction H as [|d s Hd H IH]; intros i; cbn [offset coords prod].
  - now rewrite Nat.mod_1_r.
  - rewrite IH. pose proof (prod_pos s H).
    rewrite Nat.mod_mul_r by lia. lia.
Qed.

Lemma offset_coords_lt s i :
  Forall (fun d => 0 < d) s -> i < prod s -> offset s (coords s i) = i.
Proof. intros; rewrite offset_coords; auto. now apply Nat.mod_small. Qed.

Lemma coords_offset s c : in_bounds s c -> coords s (offset s c) = c.
Proof.
  induction 1 as [|d x s c Hx H IH]; cbn [offset coords]; auto.
  f_equal.
  - rewrite Nat.mul_comm, Nat.mod_add by lia. now apply Nat.mod_small.
  - rewrite Nat.mul_comm, Nat.div_add by lia.
    rewrite Nat.div_small by lia. exact IH.
Qed.

Lemma offset_inj s c c' :
  in_bounds s c -> in_bounds s c' -> offset s c = offset s c' -> c = c'.
Proof.
  intros H H' E. rewrite <- (coords_offset s c H), <- (coords_offset s c' H'). now rewrite E.
Qed.

Lemma in_bounds_defined s c : in_bounds s c -> Forall (fun d => 0 < d) s.
Proof. induction 1; constructor; auto; lia. Qed.

Lemma offset_app s1 s2 c1 c2 :
  length s1 = length c1 ->
  offset (s1 ++ s2) (c1 ++ c2) = offset s1 c1 + prod s1 * offset s2 c2.
Proof.
  revert c1; induction s1 as [|d s1 IH]; intros [|x c1] H; simpl in *; try lia.
  rewrite IH by lia. ring.
Qed.

Lemma coords_app s1 s2 i :
  Forall (fun d => 0 < d) s1 ->
  coords (s1 ++ s2) i = coords s1 i ++ coords s2 (i / prod s1).
Proof.
  intros H; revert i; induction H as [|d s Hd H IH]; intros i; cbn [app coords prod].
  - now rewrite Nat.div_1_r.
  - rewrite IH. pose proof (prod_pos s H). rewrite Nat.div_div by lia. reflexivity.
Qed.

Lemma in_bounds_app s1 s2 c1 c2 :
  in_bounds s1 c1 -> in_bounds s2 c2 -> in_bounds (s1 ++ s2) (c1 ++ c2).
Proof. apply Forall2_app. Qed.

Lemma coords_nth s i k :
  Forall (fun d => 0 < d) s -> k < length s ->
  nth k (coords s i) 0 = (i / prod (firstn k s)) mod nth k s 0.
Proof.
  intros H; revert i k; induction H as [|d s Hd H IH]; intros i k Hk; cbn [length] in Hk; [lia|].
  destruct k as [|k].
  - cbn [coords nth firstn prod]. now rewrite Nat.div_1_r.
  - cbn [coords nth firstn prod]. rewrite IH by lia.
    assert (0 < prod (firstn k s)).
    { apply prod_pos. rewrite <- (firstn_skipn k s) in H. apply Forall_app in H; tauto. }
    now rewrite Nat.div_div by lia.
Qed.

(** dropping dimensions of size one at both ends *)
Fixpoint drop1 (s : list nat) : list nat :=
  match s with
  | 1 :: t => drop1 t
  | _ => s
  end.
Definition unpad (s : list nat) : list nat := rev (drop1 (rev (drop1 s))).

(** two dimensions agree, or one of them is unknown *)
Definition dim_agree (x y : nat) : Prop := x = y \/ x = 0 \/ y = 0.

Lemma drop1_repeat n s : drop1 (repeat 1 n ++ s) = drop1 s.
Proof. induction n; simpl; auto. Qed.

Lemma drop1_decomp s : exists n, s = repeat 1 n ++ drop1 s.
Proof.
  induction s as [|x s [n IH]]; [exists 0; auto|].
  destruct x as [|[|x]]; try (exists 0; reflexivity).
  exists (S n). simpl. now f_equal.
Qed.

Lemma drop1_id s : hd 0 s <> 1 -> drop1 s = s.
Proof. destruct s as [|[|[|x]] s]; simpl; congruence. Qed.

Lemma rev_repeat {A} (x : A) n : rev (repeat x n) = repeat x n.
Proof.
  induction n; simpl; auto. rewrite IHn. clear IHn.
  induction n; simpl; auto. now f_equal.
Qed.

Lemma unpad_window p w q :
  w = [] \/ (hd 0 w <> 1 /\ last w 0 <> 1) ->
  unpad (repeat 1 p ++ w ++ repeat 1 q) = w.
Proof.
  intros Hw. unfold unpad. rewrite drop1_repeat.
  destruct w as [|x w].
  - simpl. replace (repeat 1 q) with (repeat 1 q ++ []) by apply app_nil_r.
    rewrite drop1_repeat. reflexivity.
  - destruct Hw as [Hw|[Hh Hl]]; [discriminate|].
    rewrite (drop1_id ((x :: w) ++ repeat 1 q)) by exact Hh.
    rewrite rev_app_distr, rev_repeat, drop1_repeat.
    rewrite drop1_id.
    + apply rev_involutive.
    + destruct (exists_last (l := x :: w)) as [w' [y E]]; [discriminate|].
      rewrite E in *. rewrite rev_app_distr. simpl. rewrite last_last in Hl. exact Hl.
Qed.

Lemma prod_rev s : prod (rev s) = prod s.
Proof. induction s as [|x s IH]; simpl; auto. rewrite prod_app, IH. simpl. lia. Qed.

Lemma prod_drop1 s : prod (drop1 s) = prod s.
Proof.
  destruct (drop1_decomp s) as [n E]. rewrite E at 2.
  rewrite prod_app, prod_repeat_1. lia.
Qed.

Lemma prod_unpad s : prod (unpad s) = prod s.
Proof. unfold unpad. now rewrite prod_rev, prod_drop1, prod_rev, prod_drop1. Qed.
