(** Sums over the coordinates of a shape. *)
From Coq Require Import Reals Lra Lia.
From Verif Require Import Common ShapeModel ShapeSpec ShapeProofs TransformSpec TransformModel TransformProofs MatmulSpec NetProofs.
Local Open Scope R_scope.

Fixpoint sumc (s : list nat) (f : list nat -> R) : R :=
  match s with [] => f [] | d :: s => sumc s (fun c => sumR (fun x => f (x :: c)) d) end.

Lemma sumc_ext s : forall f g, (forall c, in_bounds s c -> f c = g c) -> sumc s f = sumc s g.
Proof.
  induction s as [|d s IH]; intros f g H; cbn [sumc]; [apply H; constructor|]. apply IH. intros c Hc. apply sumR_ext. intros x Hx. apply H. constructor; assumption.
Qed.
Lemma sumc_scal k s : forall f, sumc s (fun c => k * f c) = k * sumc s f.
Proof.
  induction s as [|d s IH]; intros f; cbn [sumc]; [reflexivity|]. rewrite <- IH. apply sumc_ext. intros c _. apply sumR_scal.
Qed.
Lemma sum_offset s : forall g, sumR g (prod s) = sumc s (fun c => g (offset s c)).
Proof.
  induction s as [|d s IH]; intros g; cbn [sumc prod offset]; [cbn; lra|]. rewrite sumR_grid, IH. reflexivity.
Qed.
Lemma sum_list l : fold_right Rplus 0 l = sumR (fun i => nth i l 0) (length l).
Proof.
  induction l as [|x l IH]; [reflexivity|]. cbn [fold_right length]. change (S (length l)) with (1 + length l)%nat. rewrite sumR_app. cbn [sumn nth Nat.add]. rewrite IH. lra.
Qed.
Lemma list_sumc s l : length l = prod s -> fold_right Rplus 0 l = sumc s (fun c => nth (offset s c) l 0).
Proof. intros L. rewrite sum_list, L. apply sum_offset. Qed.

(** along one axis *)
Lemma sumc_axis k s : forall i f, (i < length s)%nat ->
  sumc (set_nth i k s) f = sumc (set_nth i 1%nat s) (fun c => sumR (fun j => f (set_nth i j c)) k).
Proof.
  induction s as [|d s IH]; intros [|i] f H; cbn [length] in H; try lia; cbn [set_nth sumc].
  - apply sumc_ext. intros c _. cbn [sumn set_nth]. lra.
  - rewrite (IH i) by lia. apply sumc_ext. intros c _. cbn [set_nth].
    apply sumR_swap.
Qed.
Lemma sumc_axis_self s i f : (i < length s)%nat ->
  sumc s f = sumc (set_nth i 1%nat s) (fun c => sumR (fun j => f (set_nth i j c)) (nth i s 0%nat)).
Proof. intros H. rewrite <- (sumc_axis (nth i s 0%nat) s i f H), set_nth_self. reflexivity. Qed.

Lemma sumR_mod g d m : (0 < d)%nat -> sumR (fun j => g (j mod d)%nat) (d * m) = INR m * sumR g d.
Proof.
  intros Hd. rewrite sumR_grid. induction m as [|m IH]; [cbn; lra|]. cbn [sumn]. rewrite IH, S_INR.
  assert (E : sumR (fun x => g ((x + d * m) mod d)%nat) d = sumR g d) by (apply sumR_ext; intros x Hx; f_equal; rewrite Nat.mul_comm, Nat.mod_add by lia; apply Nat.mod_small; lia).
  rewrite E. ring.
Qed.
Lemma sumR_rev g n : sumR (fun j => g (n - j - 1)%nat) n = sumR g n.
Proof.
  revert g. induction n as [|n IH]; intros g; [reflexivity|]. change (S n) with (1 + n)%nat at 1 2. rewrite sumR_app. cbn [sumn].
  rewrite (sumR_ext _ (fun j => g (n - j - 1)%nat)) by (intros i Hi; f_equal; lia). rewrite IH. replace (1 + n - 0 - 1)%nat with n by lia. lra.
Qed.

Lemma in_axis s i c : (i < length s)%nat -> in_bounds (set_nth i 1%nat s) c -> (i < length c)%nat.
Proof. intros H Hc. apply in_bounds_length in Hc. rewrite length_set_nth in Hc. lia. Qed.

(** repeating an axis *)
Lemma sumc_repeat s i m g : (i < length s)%nat -> (0 < nth i s 0)%nat ->
  sumc (set_nth i (nth i s 0 * m)%nat s) (fun c => g (set_nth i (nth i c 0 mod nth i s 0)%nat c)) = INR m * sumc s g.
Proof.
  intros H Hp. rewrite (sumc_axis_self s i g H), (sumc_axis _ s i _ H), <- sumc_scal. apply sumc_ext. intros c Hc. pose proof (in_axis s i c H Hc) as L.
  rewrite <- (sumR_mod (fun j => g (set_nth i j c)) _ m Hp). apply sumR_ext. intros j Hj.
  rewrite set_nth_set_nth, nth_set_nth, Nat.eqb_refl. destruct (Nat.ltb_spec i (length c)); [reflexivity|lia].
Qed.
(** mirroring *)
Lemma sumc_mirror1 s i g : (i < length s)%nat ->
  sumc s (fun c => g (set_nth i (nth i s 0 - nth i c 0 - 1)%nat c)) = sumc s g.
Proof.
  intros H. rewrite (sumc_axis_self s i g H), (sumc_axis_self s i _ H). apply sumc_ext. intros c Hc. pose proof (in_axis s i c H Hc) as L.
  rewrite <- (sumR_rev (fun j => g (set_nth i j c))). apply sumR_ext. intros j Hj.
  rewrite set_nth_set_nth, nth_set_nth, Nat.eqb_refl. destruct (Nat.ltb_spec i (length c)); [reflexivity|lia].
Qed.
Lemma mirror_step s d dims c : Forall (fun d => (d < length s)%nat) (d :: dims) -> in_bounds s c ->
  mirror s (d :: dims) c = mirror s dims (set_nth d (nth d s 0 - nth d c 0 - 1)%nat c).
Proof.
  intros HF Hc. pose proof (flip_coord_ok s (d :: dims) c HF Hc) as E. inversion HF; subst. cbn [flip_coord] in E.
  pose proof (in_bounds_length _ _ Hc) as L. rewrite (rd_nth s d 0%nat), (rd_nth c d 0%nat) in E by lia. cbn [bind] in E. rewrite wr_ok in E by lia. cbn [bind] in E.
  rewrite flip_coord_ok in E; [congruence|assumption|].
  pose proof (proj1 (in_bounds_nth s c) Hc) as [_ Hb]. apply in_bounds_nth. rewrite length_set_nth. split; auto. intros k Hk. rewrite nth_set_nth.
  destruct (Nat.eqb_spec d k) as [<-|]; cbn [andb]; [|now apply Hb]. destruct (Nat.ltb_spec d (length c)); [|lia]. specialize (Hb d Hk). lia.
Qed.
Lemma sumc_mirror s dims : Forall (fun d => (d < length s)%nat) dims -> forall g, sumc s (fun c => g (mirror s dims c)) = sumc s g.
Proof.
  induction dims as [|d dims IH]; intros HF g.
  - apply sumc_ext. intros c Hc. f_equal. pose proof (flip_coord_ok s [] c HF Hc) as E. injection E as E. now symmetry.
  - inversion HF as [|? ? Hd HF']; subst. rewrite <- (IH HF' g), <- (sumc_mirror1 s d (fun c => g (mirror s dims c)) Hd).
    apply sumc_ext. intros c Hc. f_equal. now apply mirror_step.
Qed.
(** folding an axis *)
Lemma fold1_sum l : fold1 Rplus 0 l = fold_right Rplus 0 l.
Proof.
  assert (G : forall l a, fold_left Rplus l a = a + fold_right Rplus 0 l) by (clear; induction l as [|x l IHl]; intros a; cbn; [lra|]; rewrite IHl; lra).
  destruct l as [|x l]; [reflexivity|]. cbn. apply G.
Qed.
Lemma sumc_along s i l : (i < length s)%nat -> sumc (set_nth i 1%nat s) (fun c => fold1 Rplus 0 (along 0 s l i c)) = sumc s (fun c => nth (offset s c) l 0).
Proof.
  intros H. rewrite (sumc_axis_self s i _ H). apply sumc_ext. intros c _. rewrite fold1_sum, sum_list. unfold along. rewrite map_length, seq_length.
  apply sumR_ext. intros j Hj. rewrite (nth_indep _ 0 ((fun j => nth (offset s (set_nth i j c)) l 0) 0%nat)) by (now rewrite map_length, seq_length).
  rewrite (map_nth (fun j => nth (offset s (set_nth i j c)) l 0)), seq_nth by exact Hj. reflexivity.
Qed.
