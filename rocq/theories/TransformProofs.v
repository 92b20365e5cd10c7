(** Lemmas connecting TransformModel to TransformSpec. *)
From Verif Require Import Common ShapeModel ShapeSpec ShapeProofs FitModel FitProofs TransformModel TransformSpec.

Lemma nth_error_nth_lt {A} (l : list A) i d : i < length l -> nth_error l i = Some (nth i l d).
Proof. intros; now apply nth_error_nth'. Qed.

Lemma rd_nth {A} (l : list A) i d : i < length l -> rd l i = Ok (nth i l d).
Proof. intros H. apply rd_ok. now apply nth_error_nth'. Qed.

Lemma nth_set_nth {A} i j (v : A) l d :
  nth j (set_nth i v l) d = if (i =? j) && (i <? length l) then v else nth j l d.
Proof.
  revert i j; induction l as [|x l IH]; intros [|i] [|j]; cbn [set_nth nth length]; auto.
  - destruct (S i =? S j); reflexivity.
  - rewrite IH. reflexivity.
Qed.

Lemma set_nth_set_nth {A} i (u v : A) l : set_nth i u (set_nth i v l) = set_nth i u l.
Proof. revert i; induction l as [|x l IH]; intros [|i]; cbn; auto. now rewrite IH. Qed.

Lemma set_nth_self {A} i l (d : A) : set_nth i (nth i l d) l = l.
Proof. revert i; induction l as [|x l IH]; intros [|i]; cbn; auto. now rewrite IH. Qed.

(** filling a buffer position by position *)
Lemma for_fill {T} (body : nat -> list T -> res (list T)) (v : nat -> T) n dest :
  n <= length dest ->
  (forall i d, i < n -> length d = length dest -> body i d = Ok (set_nth i (v i) d)) ->
  exists dest', for_ n body dest = Ok dest' /\ length dest' = length dest /\
    (forall i, i < n -> nth_error dest' i = Some (v i)) /\
    (forall i, n <= i -> nth_error dest' i = nth_error dest i).
Proof.
  intros Hn Hb.
  destruct (for_inv (fun k d => length d = length dest /\ (forall i, i < k -> nth_error d i = Some (v i)) /\
     (forall i, k <= i -> nth_error d i = nth_error dest i)) body n dest) as [d' [E [L [H1 H2]]]].
  - split; auto. split; auto. intros; lia.
  - intros k d Hk [L [H1 H2]]. rewrite Hb by auto. eexists. split; [reflexivity|].
    split; [now rewrite length_set_nth|]. split.
    + intros i Hi. rewrite nth_error_set_nth. destruct (Nat.eqb_spec k i) as [<-|].
      * destruct (Nat.ltb_spec k (length d)); [reflexivity|lia].
      * cbn [andb]. apply H1; lia.
    + intros i Hi. rewrite nth_error_set_nth_neq by lia. apply H2; lia.
  - exists d'. auto.
Qed.

Lemma list_eq_by_offset {T} s (a b : list T) :
  defined s -> length a = n_elems s -> length b = n_elems s ->
  (forall c, in_bounds s c -> nth_error a (offset s c) = nth_error b (offset s c)) -> a = b.
Proof.
  intros Hd La Lb H. apply nth_error_ext_lt; [congruence|]. intros i Hi.
  specialize (H (coords s i) (coords_in_bounds s i (proj2 Hd))).
  rewrite offset_coords_lt in H; auto; [apply Hd|].
  rewrite <- n_elems_prod by apply Hd. lia.
Qed.

Lemma in_bounds_offset_lt s c : defined s -> in_bounds s c -> offset s c < n_elems s.
Proof. intros Hd H. rewrite n_elems_prod by apply Hd. now apply offset_lt. Qed.

Lemma in_bounds_nonnil s c : defined s -> in_bounds s c -> c <> [].
Proof. intros [Hd _] H ->. apply in_bounds_length in H. destruct s; cbn in *; congruence. Qed.

Lemma gather_ok {T} outs ins change (src dest : list T) (g : list nat -> list nat) :
  defined outs -> ins <> [] -> n_elems outs <= length dest ->
  (forall c, in_bounds outs c -> change c = Ok (g c) /\ g c <> [] /\ offset ins (g c) < length src) ->
  exists dest', gather outs ins change src dest = Ok dest' /\ length dest' = length dest /\
    (forall c, in_bounds outs c -> nth_error dest' (offset outs c) = nth_error src (offset ins (g c))) /\
    (forall i, n_elems outs <= i -> nth_error dest' i = nth_error dest i).
Proof.
  intros Ho Hi Hl Hc. unfold gather.
  destruct src as [|x0 src'] eqn:Es.
  { exfalso. specialize (Hc (coords outs 0) (coords_in_bounds outs 0 (proj2 Ho))). cbn in Hc. lia. }
  rewrite <- Es in *. clear Es.
  destruct (for_fill (fun i d => c <- coordinate_from_idx outs i ;; c' <- change c ;; k <- flat_idx ins c' ;; v <- rd src k ;; wr d i v)
     (fun i => nth (offset ins (g (coords outs i))) src x0) (n_elems outs) dest Hl) as [d' [E [L [H1 H2]]]].
  - intros i d Hi' Ld. rewrite coordinate_from_idx_coords by apply Ho. cbn [bind].
    destruct (Hc (coords outs i) (coords_in_bounds outs i (proj2 Ho))) as [E1 [E2 E3]].
    rewrite E1. cbn [bind]. rewrite flat_idx_offset by auto. cbn [bind]. rewrite (rd_nth src _ x0) by auto. cbn [bind].
    apply wr_ok. lia.
  - exists d'. split; auto. split; auto. split; auto.
    intros c Hin. rewrite H1 by now apply in_bounds_offset_lt. rewrite coords_offset by auto.
    symmetry. apply nth_error_nth_lt. now apply Hc.
Qed.

(** ---- transpose ---- *)

Lemma swapped_invol i j k : swapped i j (swapped i j k) = k.
Proof.
  unfold swapped. destruct (Nat.eqb_spec k i), (Nat.eqb_spec k j); subst; rewrite ?Nat.eqb_refl; auto.
  - destruct (Nat.eqb_spec j i); auto.
  - destruct (Nat.eqb_spec k i), (Nat.eqb_spec k j); congruence.
Qed.

Lemma swapped_lt i j k n : i < n -> j < n -> k < n -> swapped i j k < n.
Proof. unfold swapped. destruct (k =? i), (k =? j); auto. Qed.

Lemma swapped_sym i j k : swapped i j k = swapped j i k.
Proof. unfold swapped. destruct (Nat.eqb_spec k i), (Nat.eqb_spec k j); congruence. Qed.

Lemma length_swapc i j c : length (swapc i j c) = length c.
Proof. unfold swapc. now rewrite map_length, seq_length. Qed.

Lemma nth_swapc i j c k : k < length c -> nth k (swapc i j c) 0 = nth (swapped i j k) c 0.
Proof.
  intros H. unfold swapc.
  rewrite (nth_indep _ 0 (nth (swapped i j 0) c 0)) by (rewrite map_length, seq_length; lia).
  rewrite (map_nth (fun k => nth (swapped i j k) c 0)). now rewrite seq_nth.
Qed.

Lemma nth_ext0 (a b : list nat) : length a = length b -> (forall k, k < length a -> nth k a 0 = nth k b 0) -> a = b.
Proof. intros. eapply nth_ext; eauto. Qed.

Lemma swapc_sym i j c : swapc i j c = swapc j i c.
Proof. unfold swapc. apply map_ext. intros k. now rewrite swapped_sym. Qed.

Lemma swapc_invol i j c : i < length c -> j < length c -> swapc i j (swapc i j c) = c.
Proof.
  intros Hi Hj. apply nth_ext0; [now rewrite !length_swapc|]. rewrite !length_swapc. intros k Hk.
  rewrite nth_swapc by now rewrite length_swapc. rewrite nth_swapc by now apply swapped_lt.
  now rewrite swapped_invol.
Qed.

Lemma swap_at_ok (l : list nat) i j : i < length l -> j < length l -> swap_at l i j = Ok (swapc i j l).
Proof.
  intros Hi Hj. unfold swap_at. rewrite (rd_nth l i 0), (rd_nth l j 0) by auto. cbn [bind].
  rewrite wr_ok by auto. cbn [bind]. rewrite wr_ok by now rewrite length_set_nth. f_equal.
  apply nth_ext0; rewrite !length_set_nth; [now rewrite length_swapc|]. intros k Hk.
  rewrite nth_swapc by auto. rewrite !nth_set_nth, length_set_nth. unfold swapped.
  destruct (Nat.ltb_spec i (length l)); [|lia]. destruct (Nat.ltb_spec j (length l)); [|lia].
  rewrite !andb_true_r. rewrite (Nat.eqb_sym k j), (Nat.eqb_sym k i).
  destruct (Nat.eqb_spec j k), (Nat.eqb_spec i k); subst; auto.
Qed.

Lemma swapc_in_bounds i j s c : i < length s -> j < length s -> in_bounds (swapc i j s) c -> in_bounds s (swapc i j c).
Proof.
  intros Hi Hj H. apply in_bounds_nth in H. rewrite length_swapc in H. destruct H as [Hl H].
  apply in_bounds_nth. rewrite length_swapc. split; auto. intros k Hk.
  rewrite nth_swapc by lia. specialize (H (swapped i j k) ltac:(now apply swapped_lt)).
  rewrite nth_swapc in H by (now apply swapped_lt). now rewrite swapped_invol in H.
Qed.

Lemma swapc_in_bounds' i j s c : i < length s -> j < length s -> in_bounds s c -> in_bounds (swapc i j s) (swapc i j c).
Proof.
  intros Hi Hj H. apply swapc_in_bounds; rewrite ?length_swapc; auto. now rewrite swapc_invol.
Qed.

Lemma swapc_Forall (P : nat -> Prop) i j s : i < length s -> j < length s -> Forall P s -> Forall P (swapc i j s).
Proof.
  intros Hi Hj H. apply Forall_forall. intros x Hx. unfold swapc in Hx. apply in_map_iff in Hx.
  destruct Hx as [k [<- Hk]]. apply in_seq in Hk. rewrite Forall_forall in H. apply H, nth_In, swapped_lt; lia.
Qed.

Lemma swapc_defined i j s : i < length s -> j < length s -> defined s -> defined (swapc i j s).
Proof.
  intros Hi Hj [Hn Hp]. split; [|now apply swapc_Forall].
  intros E. apply (f_equal (@length nat)) in E. rewrite length_swapc in E. cbn in E. lia.
Qed.

Lemma order_axes_cases a b : order_axes (a, b) = (a, b) \/ order_axes (a, b) = (b, a).
Proof. unfold order_axes. cbn [fst snd]. destruct (b <? a); auto. Qed.

Lemma NoDup_map_in {A B} (f : A -> B) l :
  (forall x y, In x l -> In y l -> f x = f y -> x = y) -> NoDup l -> NoDup (map f l).
Proof.
  intros Hf H. induction H as [|x l Hx H IH]; cbn; constructor.
  - intros Hin. apply in_map_iff in Hin. destruct Hin as [y [E Hy]]. apply Hx.
    rewrite (Hf x y); cbn; auto.
  - apply IH. intros a b Ha Hb. apply Hf; cbn; auto.
Qed.

(** all in-bounds coordinates of a permuted shape are images: element counts agree *)
Lemma prod_swapc i j s : i < length s -> j < length s -> Forall (fun d => 0 < d) s -> prod (swapc i j s) = prod s.
Proof.
  intros Hi Hj HF.
  assert (G : forall i j s, i < length s -> j < length s -> Forall (fun d => 0 < d) s -> prod s <= prod (swapc i j s)).
  { clear. intros i j s Hi Hj HF.
    set (f := fun k => offset (swapc i j s) (swapc i j (coords s k))).
    assert (Hin : forall k, in_bounds (swapc i j s) (swapc i j (coords s k))).
    { intros k. apply swapc_in_bounds'; auto. now apply coords_in_bounds. }
    assert (NoDup (map f (seq 0 (prod s)))).
    { apply (NoDup_map_in f).
      - intros x y Hx Hy Hf. apply in_seq in Hx, Hy. unfold f in Hf.
        apply offset_inj in Hf; auto.
        apply (f_equal (swapc i j)) in Hf. rewrite !swapc_invol in Hf by (rewrite coords_length; auto).
        apply (f_equal (offset s)) in Hf. rewrite !offset_coords_lt in Hf by (auto; lia). exact Hf.
      - apply seq_NoDup. }
    assert (Hi' : incl (map f (seq 0 (prod s))) (seq 0 (prod (swapc i j s)))).
    { intros x Hx. apply in_map_iff in Hx. destruct Hx as [k [<- Hk]]. apply in_seq. split; [lia|].
      apply offset_lt. apply Hin. }
    pose proof (NoDup_incl_length H Hi') as L. rewrite map_length, !seq_length in L. exact L. }
  apply Nat.le_antisymm; [|apply G; auto].
  rewrite <- (swapc_invol i j s) at 2 by auto. apply G; rewrite ?length_swapc; auto. now apply swapc_Forall.
Qed.

Lemma firstn_S_nth {A} k (l : list A) d : k < length l -> firstn (S k) l = firstn k l ++ [nth k l d].
Proof.
  revert k; induction l as [|x l IH]; intros [|k] H; cbn [length] in H; try lia; auto.
  change (firstn (S (S k)) (x :: l)) with (x :: firstn (S k) l). rewrite IH by lia. reflexivity.
Qed.

(** ---- reduction along an axis ---- *)

Lemma prod_set_nth idx v s : idx < length s -> nth idx s 0 * prod (set_nth idx v s) = v * prod s.
Proof.
  revert idx; induction s as [|d s IH]; intros [|idx] H; cbn [length set_nth nth prod] in *; try lia.
  specialize (IH idx ltac:(lia)). rewrite !Nat.mul_assoc, (Nat.mul_comm _ d), <- Nat.mul_assoc, IH. ring.
Qed.

Lemma set_nth_Forall (P : nat -> Prop) idx v s : P v -> Forall P s -> Forall P (set_nth idx v s).
Proof. intros Hv H; revert idx; induction H; intros [|idx]; cbn; constructor; auto. Qed.

Definition reduced (idx : nat) (s : shape) : shape :=
  if length s =? 1 then [1]
  else if idx =? 0 then tl s
  else if length s - 1 =? idx then removelast s
  else set_nth idx 1 s.

Lemma compress_shape_reduced idx s : defined s -> idx < length s -> compress_shape idx s = Ok (reduced idx s).
Proof.
  intros Hd Hi. unfold compress_shape. rewrite (proj2 (is_fully_defined_iff s) Hd). cbn [assert_ bind].
  destruct (Nat.leb_spec (length s) idx); [lia|]. unfold reduced.
  destruct (Nat.eqb_spec (length s) 1) as [E|E].
  - destruct s as [|d [|]]; cbn in E; try lia. reflexivity.
  - destruct (idx =? 0); auto. destruct (length s - 1 =? idx); auto. now apply wr_ok.
Qed.

Lemma removelast_set_nth {A} (l : list A) v : removelast (set_nth (length l - 1) v l) = removelast l.
Proof.
  induction l as [|x l IH]; auto. destruct l as [|y l]; auto.
  cbn [length] in *. replace (S (S (length l)) - 1) with (S (length l)) by lia.
  replace (S (length l) - 1) with (length l) in IH by lia.
  change (set_nth (S (length l)) v (x :: y :: l)) with (x :: set_nth (length l) v (y :: l)).
  destruct (set_nth (length l) v (y :: l)) as [|z l'] eqn:E.
  - apply (f_equal (@length A)) in E. rewrite length_set_nth in E. discriminate.
  - change (removelast (x :: z :: l')) with (x :: removelast (z :: l')). rewrite IH. reflexivity.
Qed.

Lemma arg_compress_shape_reduced idx s : defined s -> idx < length s -> arg_compress_shape idx s = Ok (reduced idx s).
Proof.
  intros Hd Hi. unfold arg_compress_shape. rewrite (proj2 (is_fully_defined_iff s) Hd). cbn [assert_ bind].
  destruct (Nat.leb_spec (length s) idx); [lia|]. rewrite wr_ok by auto. cbn [bind]. rewrite length_set_nth. unfold reduced.
  destruct (Nat.ltb_spec 1 (length s)).
  - destruct (Nat.eqb_spec (length s) 1); [lia|].
    destruct (Nat.eqb_spec idx 0) as [->|]; [destruct s; reflexivity|].
    destruct (Nat.eqb_spec (length s - 1) idx) as [<-|]; auto. now rewrite removelast_set_nth.
  - destruct (Nat.eqb_spec (length s) 1) as [E|]; [|lia].
    destruct s as [|d [|]]; cbn in E, Hi; try lia. destruct idx; [reflexivity|lia].
Qed.

Lemma snoc_decomp {A} (s : list A) : s <> [] -> exists t d, s = t ++ [d].
Proof. intros H. destruct (exists_last H) as [t [d E]]. eauto. Qed.

Lemma reduced_defined idx s : defined s -> idx < length s -> defined (reduced idx s).
Proof.
  intros [Hn HF] Hi. unfold reduced.
  destruct (Nat.eqb_spec (length s) 1); [split; [discriminate|repeat constructor]|].
  destruct (Nat.eqb_spec idx 0).
  { destruct s as [|d s]; [congruence|]. inversion HF; subst. split; auto. destruct s; cbn in *; [lia|discriminate]. }
  destruct (Nat.eqb_spec (length s - 1) idx).
  { destruct (snoc_decomp s Hn) as [t [d ->]]. rewrite removelast_last. apply Forall_app in HF. split; [|tauto].
    rewrite app_length in *. cbn in *. destruct t; cbn in *; [lia|discriminate]. }
  split; [|apply set_nth_Forall; auto]. intros E. apply (f_equal (@length nat)) in E. rewrite length_set_nth in E. cbn in E. lia.
Qed.

Lemma reduced_prod idx s : idx < length s -> prod (reduced idx s) = prod (set_nth idx 1 s).
Proof.
  intros Hi. unfold reduced.
  destruct (Nat.eqb_spec (length s) 1) as [E|E].
  { destruct s as [|d [|]]; cbn in E, Hi; try lia. destruct idx; [reflexivity|lia]. }
  destruct (Nat.eqb_spec idx 0) as [->|]; [destruct s; cbn in *; lia|].
  destruct (Nat.eqb_spec (length s - 1) idx) as [<-|]; auto.
  destruct (snoc_decomp s) as [t [d ->]]; [destruct s; [cbn in Hi; lia|discriminate]|].
  rewrite removelast_last, app_length. cbn [length]. replace (length t + 1 - 1) with (length t) by lia.
  replace (set_nth (length t) 1 (t ++ [d])) with (t ++ [1]).
  - rewrite prod_app. cbn. lia.
  - clear. induction t; cbn; auto. now f_equal.
Qed.

(** the rebuilt coordinate addresses the right element for every value of the axis *)
Lemma reaxis_ok idx s i : defined s -> idx < length s -> i < prod (set_nth idx 1 s) ->
  exists c', reaxis idx (coords (reduced idx s) i) = Ok c' /\ idx < length c' /\
    set_nth idx 0 c' = c' /\
    forall j, offset s (set_nth idx j c') = offset s (set_nth idx j (coords (set_nth idx 1 s) i)).
Proof.
  intros [Hn HF] Hi Hlt. unfold reduced.
  assert (S1 : Forall (fun d => 0 < d) (set_nth idx 1 s)) by (apply set_nth_Forall; auto).
  destruct (Nat.eqb_spec (length s) 1) as [E|E].
  { destruct s as [|d [|]]; cbn in E, Hi; try lia. destruct idx; [|lia].
    exists [0; 0]. assert (Ec : coords [1] i = [0]) by (unfold coords; now rewrite Nat.mod_1_r). rewrite Ec. split; [reflexivity|]. split; [cbn; lia|]. split; [reflexivity|].
    intros j. reflexivity. }
  destruct (Nat.eqb_spec idx 0) as [->|Hidx].
  { destruct s as [|d s]; [congruence|]. cbn [tl]. exists (0 :: coords s i). unfold reaxis. rewrite coords_length.
    cbn in E. destruct (Nat.eqb_spec 0 (length s)); [lia|]. split; [reflexivity|]. split; [cbn; lia|]. split; [reflexivity|].
    intros j. cbn [set_nth coords]. rewrite Nat.div_1_r. reflexivity. }
  destruct (Nat.eqb_spec (length s - 1) idx) as [Hl|Hl].
  { destruct (snoc_decomp s Hn) as [t [d ->]]. rewrite removelast_last. rewrite app_length in *. cbn [length] in *.
    exists (coords t i ++ [0]). unfold reaxis. rewrite coords_length.
    destruct (Nat.eqb_spec idx (length t)) as [->|]; [|lia].
    assert (Q : forall (l : list nat) v w, set_nth (length l) v (l ++ [w]) = l ++ [v]).
    { clear. induction l; intros; cbn; auto. now rewrite IHl. }
    pose proof (Q (coords t i)) as Q1. rewrite coords_length in Q1.
    split; [reflexivity|]. split; [rewrite app_length, coords_length; cbn; lia|].
    split; [now rewrite Q1|].
    intros j. rewrite Q, coords_app by (apply Forall_app in HF; tauto).
    rewrite Q1. pose proof (Q (coords t i)) as Q2. rewrite coords_length in Q2. cbn [coords]. now rewrite Q2. }
  exists (coords (set_nth idx 1 s) i). unfold reaxis. rewrite coords_length, length_set_nth.
  destruct (Nat.eqb_spec idx (length s)); [lia|]. destruct (Nat.eqb_spec idx 0); [lia|].
  assert (Z : nth idx (coords (set_nth idx 1 s) i) 0 = 0).
  { rewrite coords_nth by (auto; rewrite length_set_nth; lia). rewrite nth_set_nth, Nat.eqb_refl.
    destruct (Nat.ltb_spec idx (length s)); [|lia]. cbn [andb]. apply Nat.mod_1_r. }
  assert (Z' : set_nth idx 0 (coords (set_nth idx 1 s) i) = coords (set_nth idx 1 s) i).
  { rewrite <- Z at 1. apply set_nth_self. }
  rewrite wr_ok by (rewrite coords_length, length_set_nth; lia). rewrite Z'.
  split; [reflexivity|]. split; [lia|]. split; auto.
Qed.

Lemma reaxis_arg_ok idx s i : defined s -> idx < length s -> i < prod (set_nth idx 1 s) ->
  exists c', reaxis_arg idx (coords (reduced idx s) i) = Ok c' /\ idx < length c' /\
    forall j, offset s (set_nth idx j c') = offset s (set_nth idx j (coords (set_nth idx 1 s) i)).
Proof.
  intros Hd Hi Hlt. destruct (reaxis_ok idx s i Hd Hi Hlt) as [c' [E [L [Z O]]]].
  unfold reaxis in E. unfold reaxis_arg.
  destruct (idx =? length (coords (reduced idx s) i)); [exists c'; auto|].
  destruct (idx =? 0); [exists c'; auto|].
  unfold wr in E. destruct (Nat.ltb_spec idx (length (coords (reduced idx s) i))); [|discriminate]. injection E as <-.
  exists (coords (reduced idx s) i). split; auto. split; auto. intros j. rewrite <- O. now rewrite set_nth_set_nth.
Qed.

Lemma axis_in_bounds idx s c j : idx < length s -> in_bounds (set_nth idx 1 s) c -> j < nth idx s 0 -> in_bounds s (set_nth idx j c).
Proof.
  intros Hi Hc Hj. apply in_bounds_nth in Hc. rewrite length_set_nth in Hc. destruct Hc as [Hl Hc].
  apply in_bounds_nth. rewrite length_set_nth. split; auto. intros k Hk. rewrite nth_set_nth.
  destruct (Nat.eqb_spec idx k) as [<-|Hne].
  - destruct (Nat.ltb_spec idx (length c)); [exact Hj|lia].
  - cbn [andb]. specialize (Hc k Hk). rewrite nth_set_nth in Hc. destruct (Nat.eqb_spec idx k); [congruence|]. exact Hc.
Qed.

Lemma nth_pos s idx : defined s -> idx < length s -> 0 < nth idx s 0.
Proof. intros [_ H] Hi. now apply Forall_nth_pos. Qed.

Lemma fold_left_map_seq {T} (f : T -> T -> T) (g : nat -> T) n a :
  fold_left f (map g (seq 1 n)) a = fold_left (fun x j => f x (g j)) (seq 1 n) a.
Proof. revert a. generalize 1. induction n; intros s a; cbn; auto. Qed.

Lemma along_length {T} (d0 : T) s src idx c : length (along d0 s src idx c) = nth idx s 0.
Proof. unfold along. now rewrite map_length, seq_length. Qed.

Lemma compress_fwd_ok {T} (f : T -> T -> T) (d0 : T) idx ins src dest :
  defined ins -> idx < length ins -> length src = n_elems ins -> n_elems (reduced idx ins) <= length dest ->
  exists dest', compress_fwd f idx (reduced idx ins) ins src dest = Ok dest' /\ length dest' = length dest /\
    (forall c, in_bounds (set_nth idx 1 ins) c ->
       nth_error dest' (offset (set_nth idx 1 ins) c) = Some (fold1 f d0 (along d0 ins src idx c))) /\
    (forall i, n_elems (reduced idx ins) <= i -> nth_error dest' i = nth_error dest i).
Proof.
  intros Hd Hi Ls Ld. unfold compress_fwd. destruct (Nat.leb_spec (length ins) idx); [lia|].
  rewrite (rd_nth ins idx 0) by auto. cbn [bind].
  pose proof (reduced_defined idx ins Hd Hi) as Hr.
  assert (En : n_elems (reduced idx ins) = prod (set_nth idx 1 ins)).
  { rewrite n_elems_prod by apply Hr. now apply reduced_prod. }
  assert (S1 : Forall (fun d => 0 < d) (set_nth idx 1 ins)) by (apply set_nth_Forall; [lia|apply Hd]).
  pose proof (nth_pos ins idx Hd Hi) as Hpos.
  assert (Hoff : forall c j, in_bounds (set_nth idx 1 ins) c -> j < nth idx ins 0 -> offset ins (set_nth idx j c) < length src).
  { intros c j Hc Hj. rewrite Ls. apply in_bounds_offset_lt; auto. now apply axis_in_bounds. }
  match goal with |- context [for_ _ ?b dest] =>
    destruct (for_fill b (fun i => fold1 f d0 (along d0 ins src idx (coords (set_nth idx 1 ins) i))) (n_elems (reduced idx ins)) dest Ld)
      as [d' [E [L [H1 H2]]]] end.
  - intros i d Hlt Hld. rewrite coordinate_from_idx_coords by apply Hr. cbn [bind].
    destruct (reaxis_ok idx ins i Hd Hi ltac:(lia)) as [c' [E1 [L1 [Z O]]]]. rewrite E1. cbn [bind].
    set (c := coords (set_nth idx 1 ins) i) in *.
    assert (Hc : in_bounds (set_nth idx 1 ins) c) by now apply coords_in_bounds.
    assert (Hne : forall j, set_nth idx j c' <> []).
    { intros j Ej. apply (f_equal (@length nat)) in Ej. rewrite length_set_nth in Ej. cbn in Ej. lia. }
    assert (O0 : offset ins c' = offset ins (set_nth idx 0 c)) by (rewrite <- Z; apply O).
    rewrite flat_idx_offset by (try apply Hd; rewrite <- Z; apply Hne). cbn [bind]. rewrite O0.
    rewrite (rd_nth src _ d0) by (apply Hoff; auto). cbn [bind]. rewrite wr_ok by lia. cbn [bind].
    set (g := fun j => nth (offset ins (set_nth idx j c)) src d0).
    assert (Ef : fold1 f d0 (along d0 ins src idx c) = fold_left (fun x j => f x (g j)) (seq 1 (nth idx ins 0 - 1)) (g 0)).
    { unfold along, fold1. fold g. destruct (nth idx ins 0) as [|n]; [lia|]. cbn [seq map].
      rewrite fold_left_map_seq. now replace (S n - 1) with n by lia. }
    rewrite Ef. clear Ef.
    match goal with |- bind (for_ ?n ?b ?st) _ = _ =>
      destruct (for_inv (fun k (p : list nat * list T) => fst p = set_nth idx k c' /\
         snd p = set_nth i (fold_left (fun x j => f x (g j)) (seq 1 k) (g 0)) d) b n st) as [p [Ep [P1 P2]]] end.
    + cbn [fst snd]. split; auto.
    + intros k [cc dd] Hk [Pc Pd]. cbn [fst snd] in *. subst cc dd.
      rewrite wr_ok by (rewrite length_set_nth; lia). cbn [bind]. rewrite set_nth_set_nth.
      rewrite flat_idx_offset by (try apply Hd; apply Hne). cbn [bind]. rewrite O.
      rewrite (rd_ok _ i (fold_left (fun x j => f x (g j)) (seq 1 k) (g 0))) by (apply nth_error_set_nth_eq; lia). cbn [bind].
      rewrite (rd_nth src _ d0) by (apply Hoff; auto; lia). cbn [bind].
      rewrite wr_ok by (rewrite length_set_nth; lia). cbn [bind]. rewrite set_nth_set_nth.
      eexists. split; [reflexivity|]. cbn [fst snd]. rewrite Nat.add_1_r. split; auto.
      f_equal. rewrite seq_S, fold_left_app. reflexivity.
    + rewrite Ep. cbn [bind]. now rewrite P2.
  - exists d'. split; auto. split; auto. split; auto.
    intros c Hc. rewrite H1 by (rewrite En; now apply offset_lt). now rewrite coords_offset.
Qed.

Lemma compress_all_ok {T} (f : T -> T -> T) (d0 : T) ins src dest :
  defined ins -> length src = n_elems ins -> 0 < length dest ->
  compress_all_fwd f ins src dest = Ok (set_nth 0 (fold1 f d0 src) dest).
Proof.
  intros Hd Ls Hl. unfold compress_all_fwd. pose proof (n_elems_pos ins Hd) as Hp.
  destruct (Nat.eqb_spec (n_elems ins) 0); [lia|].
  destruct src as [|x src]; cbn [length] in Ls; [lia|]. cbn [rd nth_error bind].
  change (rd (x :: src) 0) with (Ok x). cbn [bind].
  destruct (for_inv (fun k a => a = fold_left f (firstn k src) x)
    (fun i acc => v <- rd (x :: src) (i + 1) ;; Ok (f acc v)) (n_elems ins - 1) x) as [a [E H]].
  - reflexivity.
  - intros k a Hk ->. rewrite Nat.add_1_r. unfold rd. cbn [nth_error].
    rewrite (nth_error_nth_lt src k d0) by lia. cbn [bind]. eexists. split; [reflexivity|].
    rewrite (firstn_S_nth k src d0) by lia. now rewrite fold_left_app.
  - rewrite E. cbn [bind]. rewrite wr_ok by auto. rewrite H. rewrite firstn_all2 by lia. reflexivity.
Qed.

Lemma arg_compress_fwd_ok {T} (search : list T -> res T) (d0 : T) (best : list T -> T) idx ins src dest :
  defined ins -> idx < length ins -> length src = n_elems ins -> n_elems (reduced idx ins) <= length dest ->
  (forall l, l <> [] -> search l = Ok (best l)) ->
  exists dest', arg_compress_fwd search idx (reduced idx ins) ins src dest = Ok dest' /\ length dest' = length dest /\
    (forall c, in_bounds (set_nth idx 1 ins) c ->
       nth_error dest' (offset (set_nth idx 1 ins) c) = Some (best (along d0 ins src idx c))) /\
    (forall i, n_elems (reduced idx ins) <= i -> nth_error dest' i = nth_error dest i).
Proof.
  intros Hd Hi Ls Ld Hs. unfold arg_compress_fwd.
  pose proof (reduced_defined idx ins Hd Hi) as Hr.
  assert (En : n_elems (reduced idx ins) = prod (set_nth idx 1 ins)).
  { rewrite n_elems_prod by apply Hr. now apply reduced_prod. }
  assert (S1 : Forall (fun d => 0 < d) (set_nth idx 1 ins)) by (apply set_nth_Forall; [lia|apply Hd]).
  pose proof (nth_pos ins idx Hd Hi) as Hpos.
  assert (Hoff : forall c j, in_bounds (set_nth idx 1 ins) c -> j < nth idx ins 0 -> offset ins (set_nth idx j c) < length src).
  { intros c j Hc Hj. rewrite Ls. apply in_bounds_offset_lt; auto. now apply axis_in_bounds. }
  match goal with |- context [for_ _ ?b dest] =>
    destruct (for_fill b (fun i => best (along d0 ins src idx (coords (set_nth idx 1 ins) i))) (n_elems (reduced idx ins)) dest Ld)
      as [d' [E [L [H1 H2]]]] end.
  - intros i d Hlt Hld. rewrite coordinate_from_idx_coords by apply Hr. cbn [bind].
    destruct (reaxis_arg_ok idx ins i Hd Hi ltac:(lia)) as [c' [E1 [L1 O]]]. rewrite E1. cbn [bind].
    rewrite (rd_nth ins idx 0) by auto. cbn [bind].
    set (c := coords (set_nth idx 1 ins) i) in *.
    assert (Hc : in_bounds (set_nth idx 1 ins) c) by now apply coords_in_bounds.
    assert (Hne : forall j, set_nth idx j c' <> []).
    { intros j Ej. apply (f_equal (@length nat)) in Ej. rewrite length_set_nth in Ej. cbn in Ej. lia. }
    match goal with |- bind (for_ ?n ?b ?st) _ = _ =>
      destruct (for_inv (fun k (p : list nat * list T) => (exists v, fst p = set_nth idx v c') /\
         snd p = map (fun j => nth (offset ins (set_nth idx j c)) src d0) (seq 0 k)) b n st) as [p [Ep [_ P2]]] end.
    + cbn [fst snd]. split; auto. exists (nth idx c' 0). now rewrite set_nth_self.
    + intros k [cc sv] Hk [[v Pc] Ps]. cbn [fst snd] in *. subst cc sv.
      rewrite wr_ok by (rewrite length_set_nth; lia). cbn [bind]. rewrite set_nth_set_nth.
      rewrite flat_idx_offset by (try apply Hd; apply Hne). cbn [bind]. rewrite O.
      rewrite (rd_nth src _ d0) by (apply Hoff; auto; lia). cbn [bind].
      eexists. split; [reflexivity|]. cbn [fst snd]. split; [eauto|].
      rewrite seq_S, map_app. reflexivity.
    + rewrite Ep. cbn [bind]. rewrite P2. rewrite Hs.
      * cbn [bind]. apply wr_ok. lia.
      * intros C. apply (f_equal (@length T)) in C. rewrite map_length, seq_length in C. cbn in C. lia.
  - exists d'. split; auto. split; auto. split; auto.
    intros c Hc. rewrite H1 by (rewrite En; now apply offset_lt). now rewrite coords_offset.
Qed.

(** ---- maximum search ---- *)

Lemma max_element_ok {T} (lt : T -> T -> bool) (d0 : T) (l : list T) : strict_order lt ->
  forall rest pre best, l = pre ++ rest -> pre <> [] ->
  best < length pre ->
  (forall j, j < length pre -> lt (nth best l d0) (nth j l d0) = false) ->
  (forall j, j < best -> lt (nth j l d0) (nth best l d0) = true) ->
  first_max lt d0 l (max_element_from lt rest (length pre) best (nth best l d0)).
Proof.
  intros [Hirr [Has Htr]]. induction rest as [|x rest IH]; intros pre best El Hne Hb H1 H2; cbn [max_element_from].
  - rewrite app_nil_r in El. subst pre. split; auto.
  - assert (Ex : nth (length pre) l d0 = x). { rewrite El, app_nth2, Nat.sub_diag by lia. reflexivity. }
    assert (El' : l = (pre ++ [x]) ++ rest) by (rewrite <- app_assoc; exact El).
    assert (Lp : length (pre ++ [x]) = S (length pre)) by (rewrite app_length; cbn; lia).
    destruct (lt (nth best l d0) x) eqn:C.
    + specialize (IH (pre ++ [x]) (length pre) El'). rewrite Lp, Ex in IH. apply IH.
      * destruct pre; discriminate.
      * lia.
      * intros j Hj. destruct (Nat.eq_dec j (length pre)) as [->|].
        -- rewrite Ex. apply Hirr.
        -- apply (Htr x (nth best l d0) (nth j l d0)); [now apply Has|apply H1; lia].
      * intros j Hj.
        destruct (lt (nth j l d0) x) eqn:Cj; auto. exfalso.
        (* best not less than j, j not less than x -> best not less than x *)
        rewrite (Htr _ _ _ (H1 j Hj) Cj) in C. discriminate.
    + specialize (IH (pre ++ [x]) best El'). rewrite Lp in IH. apply IH; [destruct pre; discriminate|lia| |exact H2].
      intros j Hj. destruct (Nat.eq_dec j (length pre)) as [->|]; [rewrite Ex; exact C|apply H1; lia].
Qed.

Lemma arg_max_first {T} (lt : T -> T -> bool) (of_nat : nat -> T) (d0 : T) (l : list T) :
  strict_order lt -> l <> [] -> exists k, arg_max_search lt of_nat l = Ok (of_nat k) /\ first_max lt d0 l k.
Proof.
  intros Ho Hne. destruct l as [|x l]; [congruence|]. cbn [arg_max_search]. eexists. split; [reflexivity|].
  pose proof (max_element_ok lt d0 (x :: l) Ho l [x] 0 eq_refl) as H. apply H; cbn; auto; try discriminate.
  - intros j Hj. destruct j; [|lia]. apply (proj1 Ho).
  - intros; lia.
Qed.

(** ---- flip ---- *)

Lemma mirror_length s dims c : length (mirror s dims c) = length c.
Proof. unfold mirror. now rewrite map_length, seq_length. Qed.

Lemma nth_mirror s dims c k : k < length c ->
  nth k (mirror s dims c) 0 = if Nat.odd (count_occ Nat.eq_dec dims k) then nth k s 0 - nth k c 0 - 1 else nth k c 0.
Proof.
  intros H. unfold mirror.
  set (g := fun k => if Nat.odd (count_occ Nat.eq_dec dims k) then nth k s 0 - nth k c 0 - 1 else nth k c 0).
  rewrite (nth_indep _ 0 (g 0)) by (rewrite map_length, seq_length; lia).
  rewrite (map_nth g). now rewrite seq_nth.
Qed.

Lemma flip_coord_ok s dims : forall c, Forall (fun d => d < length s) dims -> in_bounds s c ->
  flip_coord s dims c = Ok (mirror s dims c).
Proof.
  induction dims as [|d dims IH]; intros c HF Hc; cbn [flip_coord].
  - f_equal. apply nth_ext0; [now rewrite mirror_length|]. intros k Hk. now rewrite nth_mirror.
  - inversion HF; subst. pose proof (in_bounds_length _ _ Hc) as L.
    rewrite (rd_nth s d 0), (rd_nth c d 0) by lia. cbn [bind]. rewrite wr_ok by lia. cbn [bind].
    pose proof (proj1 (in_bounds_nth s c) Hc) as [_ Hb].
    assert (Hc' : in_bounds s (set_nth d (nth d s 0 - nth d c 0 - 1) c)).
    { apply in_bounds_nth. rewrite length_set_nth. split; auto. intros k Hk. rewrite nth_set_nth.
      destruct (Nat.eqb_spec d k) as [<-|]; cbn [andb]; [|now apply Hb].
      destruct (Nat.ltb_spec d (length c)); [|lia]. specialize (Hb d Hk). lia. }
    rewrite IH by auto. f_equal. apply nth_ext0; rewrite !mirror_length, length_set_nth; auto. intros k Hk.
    rewrite !nth_mirror by (rewrite ?length_set_nth; lia). rewrite nth_set_nth. cbn [count_occ].
    destruct (Nat.eqb_spec d k) as [->|Hne].
    + destruct (Nat.ltb_spec k (length c)); [|lia]. cbn [andb]. destruct (Nat.eq_dec k k); [|congruence].
      rewrite Nat.odd_succ, <- Nat.negb_odd. specialize (Hb k ltac:(lia)).
      destruct (Nat.odd (count_occ Nat.eq_dec dims k)); cbn [negb]; lia.
    + cbn [andb]. destruct (Nat.eq_dec d k); [congruence|]. reflexivity.
Qed.

Lemma mirror_in_bounds s dims c : in_bounds s c -> in_bounds s (mirror s dims c).
Proof.
  intros H. pose proof (proj1 (in_bounds_nth s c) H) as [L Hb]. apply in_bounds_nth. rewrite mirror_length. split; auto.
  intros k Hk. rewrite nth_mirror by lia. specialize (Hb k Hk). destruct (Nat.odd _); lia.
Qed.

Lemma mirror_invol s dims c : in_bounds s c -> mirror s dims (mirror s dims c) = c.
Proof.
  intros H. pose proof (proj1 (in_bounds_nth s c) H) as [L Hb].
  apply nth_ext0; rewrite !mirror_length; auto. intros k Hk.
  rewrite !nth_mirror by (rewrite ?mirror_length; lia). specialize (Hb k ltac:(lia)). destruct (Nat.odd _); lia.
Qed.

(** ---- fit operator ---- *)

Lemma fit_op_low_ok k : forall j coords srcl, j + k <= length coords -> j + k <= length srcl ->
  fit_op_low k j coords srcl = Ok (forallb (fun m => nth m coords 0 <? nth m srcl 0) (seq j k)).
Proof.
  induction k as [|k IH]; intros j cs sl H1 H2; cbn [fit_op_low seq forallb]; auto.
  rewrite (rd_nth cs j 0), (rd_nth sl j 0) by lia. cbn [bind].
  destruct (nth j cs 0 <? nth j sl 0); cbn [andb]; auto. apply IH; lia.
Qed.

Lemma fit_op_high_ok k : forall j coords, j + k <= length coords ->
  fit_op_high k j coords = Ok (forallb (fun m => nth m coords 0 =? 0) (seq j k)).
Proof.
  induction k as [|k IH]; intros j cs H1; cbn [fit_op_high seq forallb]; auto.
  rewrite (rd_nth cs j 0) by lia. cbn [bind].
  destruct (nth j cs 0 =? 0); cbn [andb]; auto. apply IH; lia.
Qed.

Lemma fit_op_belongs s c : Forall (fun d => 0 < d) s ->
  forallb (fun m => nth m c 0 <? nth m s 0) (seq 0 (Nat.min (length s) (length c))) &&
  forallb (fun m => nth m c 0 =? 0) (seq (Nat.min (length s) (length c)) (length c - Nat.min (length s) (length c)))
  = belongsb s c.
Proof.
  intros HF. apply Bool.eq_iff_eq_true. rewrite andb_true_iff, belongsb_iff, !forallb_forall. unfold belongs. split.
  - intros [H1 H2] k. destruct (Nat.lt_ge_cases k (length c)) as [Hc|Hc].
    + destruct (Nat.lt_ge_cases k (length s)) as [Hs|Hs].
      * specialize (H1 k ltac:(apply in_seq; lia)). apply Nat.ltb_lt in H1. rewrite (nth_indep s 1 0) by auto. exact H1.
      * specialize (H2 k ltac:(apply in_seq; lia)). apply Nat.eqb_eq in H2. rewrite H2, (nth_overflow s) by auto. lia.
    + rewrite (nth_overflow c) by auto. destruct (Nat.lt_ge_cases k (length s)).
      * rewrite (nth_indep s 1 0) by auto. now apply Forall_nth_pos.
      * rewrite nth_overflow by auto. lia.
  - intros H. split.
    + intros k Hk. apply in_seq in Hk. apply Nat.ltb_lt. specialize (H k). rewrite (nth_indep s 1 0) in H by lia. exact H.
    + intros k Hk. apply in_seq in Hk. apply Nat.eqb_eq. specialize (H k).
      assert (length s <= k) by lia. rewrite (nth_overflow s) in H by auto. lia.
Qed.
