(** Lemmas about elementwise operations. *)
From Verif Require Import Common ShapeModel ShapeSpec ShapeProofs FitModel FitProofs TransformModel TransformProofs ElemSpec ElemModel.

Lemma for_fill_all {T} (body : nat -> list T -> res (list T)) (v : nat -> T) n dest :
  length dest = n -> (forall i d, i < n -> length d = n -> body i d = Ok (set_nth i (v i) d)) ->
  for_ n body dest = Ok (map v (seq 0 n)).
Proof.
  intros L H. destruct (for_fill body v n dest) as [d' [E [L' [H1 _]]]]; [lia|intros; apply H; auto; lia|].
  rewrite E. f_equal. apply nth_error_ext_lt; [rewrite map_length, seq_length; lia|].
  intros i Hi. rewrite H1 by lia. rewrite nth_error_map, nth_error_seq by lia. reflexivity.
Qed.

Section E.
Context {T : Type}.
Definition wf (t : tens T) : Prop := is_fully_defined (fst t) = true /\ length (snd t) = n_elems (fst t).

Definition ushape (s : shape) : shape := if n_elems s =? 1 then [1] else s.

Lemma ushape_n s : n_elems (ushape s) = n_elems s.
Proof. unfold ushape. destruct (Nat.eqb_spec (n_elems s) 1) as [E|]; [rewrite E|]; reflexivity. Qed.
Lemma ushape_def s : is_fully_defined s = true -> is_fully_defined (ushape s) = true.
Proof. unfold ushape. destruct (n_elems s =? 1); auto. Qed.

Lemma shaper_unary s : is_fully_defined s = true -> elementary_shaper [s] = Ok (ushape s).
Proof.
  intros H. unfold elementary_shaper, elementary_loop, ushape. destruct (n_elems s =? 1); [reflexivity|].
  replace (is_compatible_with s []) with (Ok true) by (destruct s; reflexivity). cbn [bind]. now rewrite H.
Qed.

Definition bshape (sa sb : shape) : shape := if n_elems sb =? 1 then ushape sa else sb.

Lemma shaper_binary sa sb : is_fully_defined sa = true -> is_fully_defined sb = true ->
  (n_elems sa = 1 \/ n_elems sb = 1 \/ same_layout sa sb -> elementary_shaper [sa; sb] = Ok (bshape sa sb)) /\
  (~ (n_elems sa = 1 \/ n_elems sb = 1 \/ same_layout sa sb) -> elementary_shaper [sa; sb] = Throw).
Proof.
  intros Ha Hb. pose proof Ha as Da. pose proof Hb as Db. apply is_fully_defined_iff in Da, Db.
  unfold elementary_shaper, bshape, ushape. cbn [elementary_loop].
  assert (Cn : forall s : shape, is_compatible_with s [] = Ok true) by (intros [|]; reflexivity).
  assert (Cs : same_layout sb sa <-> is_compatible_with sb sa = Ok true).
  { rewrite compat_defined_iff by auto. unfold same_layout. split; intros [H|H]; auto; [subst; auto|]. left; tauto. }
  assert (Sy : same_layout sa sb -> same_layout sb sa).
  { intros [->|[H1 H2]]; [now left|right; split; congruence]. }
  assert (Sy' : same_layout sb sa -> same_layout sa sb).
  { intros [->|[H1 H2]]; [now left|right; split; congruence]. }
  destruct (Nat.eqb_spec (n_elems sa) 1) as [Ea|Ea]; destruct (Nat.eqb_spec (n_elems sb) 1) as [Eb|Eb]; rewrite ?Cn; cbn [bind]; rewrite ?Ha, ?Hb.
  - split; [reflexivity|tauto].
  - split; [reflexivity|tauto].
  - split; [reflexivity|tauto].
  - destruct (compat_total sb sa) as [r E]. rewrite E. cbn [bind]. destruct r.
    + cbn [bind]. rewrite Hb. split; [reflexivity|]. intros H. exfalso. apply H. right. right. apply Sy', Cs, E.
    + split; [|reflexivity]. intros [?|[?|H]]; try lia. apply Sy, Cs in H. congruence.
Qed.

Lemma same_layout_n sa sb : is_fully_defined sa = true -> is_fully_defined sb = true -> same_layout sa sb -> n_elems sa = n_elems sb.
Proof.
  intros Ha Hb. apply is_fully_defined_iff in Ha, Hb. intros H. rewrite !n_elems_prod by (apply Ha || apply Hb).
  destruct H as [->|[_ H]]; auto. now rewrite <- (prod_unpad sa), <- (prod_unpad sb), H.
Qed.

Lemma forward_fresh fresh shaper (Nf : forward) args s d :
  shaper (map fst args) = Ok s -> is_fully_defined s = true ->
  Nf s (map fst args) (map snd args) (map fresh (seq 0 (n_elems s))) = Ok d ->
  forward_pass (T := T) fresh shaper Nf args None = Ok (s, d).
Proof. intros E1 E2 E3. unfold forward_pass. rewrite E1. cbn [bind]. now rewrite E2, E3. Qed.

Lemma map_seq_nth (f : T -> T) l (d0 : T) : map (fun i => f (nth i l d0)) (seq 0 (length l)) = map f l.
Proof.
  apply nth_error_ext_lt; rewrite ?map_length, ?seq_length; auto. intros i Hi.
  rewrite !nth_error_map, nth_error_seq by lia. cbn. rewrite (nth_error_nth_lt l i d0) by lia. reflexivity.
Qed.

Lemma transform_ok f outs ins (src dest : list T) : n_elems outs = length src -> length dest = length src ->
  transform_fwd f outs ins [src] dest = Ok (map f src).
Proof.
  intros L Ld. unfold transform_fwd. cbn [map rd nth_error bind].
  destruct src as [|d0 l].
  { cbn in L, Ld. rewrite L. destruct dest; [reflexivity|discriminate]. }
  rewrite (for_fill_all _ (fun i => f (nth i (d0 :: l) d0))); try lia.
  - f_equal. rewrite L. apply map_seq_nth.
  - intros i d Hi Ldd. rewrite (rd_nth _ i d0) by lia. cbn [bind]. apply wr_ok. lia.
Qed.

Lemma unary_ok fresh f (t : tens T) : wf t ->
  forward_pass fresh elementary_shaper (transform_fwd f) [t] None = Ok (ushape (fst t), map f (snd t)).
Proof.
  intros [F L]. apply forward_fresh; [now apply shaper_unary|now apply ushape_def|].
  cbn [map]. apply transform_ok; rewrite ?map_length, ?seq_length, ushape_n; auto.
Qed.

Lemma broadcast_nth {A} n (l : list A) i d0 : i < n -> length l = 1 \/ length l = n ->
  nth i (broadcast n l) d0 = nth (if length l =? 1 then 0 else i) l d0.
Proof.
  intros Hi H. unfold broadcast. destruct l as [|x [|y l]]; cbn [length] in *; try (destruct i; cbn; reflexivity); try (cbn; reflexivity).
  cbn [Nat.eqb]. clear H. revert i Hi. induction n; intros [|i] Hi; cbn; try lia; auto. apply IHn; lia.
Qed.
Lemma broadcast_length {A} n (l : list A) : length l = 1 \/ length l = n -> length (broadcast n l) = n.
Proof. intros [H|H]; destruct l as [|x [|y l]]; cbn in *; try lia; now rewrite repeat_length. Qed.

Lemma map2_length {A B C} (f : A -> B -> C) l r : length (map2 f l r) = Nat.min (length l) (length r).
Proof. revert r; induction l as [|x l IH]; intros [|y r]; cbn; auto. Qed.
Lemma map2_nth_error {A B C} (f : A -> B -> C) l r i a b : i < length l -> i < length r ->
  nth_error (map2 f l r) i = Some (f (nth i l a) (nth i r b)).
Proof. revert r i; induction l as [|x l IH]; intros [|y r] [|i] H1 H2; cbn in *; try lia; auto. apply IH; lia. Qed.

Lemma binary_elem_ok f (a b : tens T) dest : wf a -> wf b ->
  n_elems (fst a) = 1 \/ n_elems (fst b) = 1 \/ same_layout (fst a) (fst b) ->
  let n := n_elems (bshape (fst a) (fst b)) in length dest = n ->
  binary_elem f (bshape (fst a) (fst b)) [fst a; fst b] [snd a; snd b] dest = Ok (map2 f (broadcast n (snd a)) (broadcast n (snd b))).
Proof.
  intros [Fa La] [Fb Lb] H n Ld.
  assert (Na : length (snd a) = 1 \/ length (snd a) = n).
  { rewrite La. unfold n, bshape. destruct (Nat.eqb_spec (n_elems (fst b)) 1); [rewrite ushape_n; auto|].
    destruct H as [H|[H|H]]; auto; try lia. right. now apply same_layout_n. }
  assert (Nb : length (snd b) = 1 \/ length (snd b) = n).
  { rewrite Lb. unfold n, bshape. destruct (Nat.eqb_spec (n_elems (fst b)) 1); auto. }
  assert (Pa : 0 < length (snd a)). { rewrite La. apply is_fully_defined_iff in Fa. rewrite n_elems_prod by apply Fa. apply prod_pos, Fa. }
  assert (Pb : 0 < length (snd b)). { rewrite Lb. apply is_fully_defined_iff in Fb. rewrite n_elems_prod by apply Fb. apply prod_pos, Fb. }
  destruct (snd a) as [|x0 la] eqn:Ea; [cbn in Pa; lia|]. destruct (snd b) as [|y0 lb] eqn:Eb; [cbn in Pb; lia|]. rewrite <- Ea, <- Eb in *.
  unfold binary_elem. cbn [map length assert_ Nat.eqb bind rd nth_error]. fold n. rewrite <- La, <- Lb.
  rewrite (for_fill_all _ (fun i => f (nth i (broadcast n (snd a)) x0) (nth i (broadcast n (snd b)) y0))); auto.
  - f_equal. apply nth_error_ext_lt.
    + rewrite map_length, seq_length, map2_length, !broadcast_length; auto. lia.
    + rewrite map_length, seq_length. intros i Hi. rewrite nth_error_map, nth_error_seq by lia. cbn.
      symmetry. apply map2_nth_error; rewrite broadcast_length; auto.
  - intros i d Hi Ldd. rewrite !broadcast_nth by auto.
    assert (G : forall (l : list T) d0, 0 < length l -> length l = 1 \/ length l = n ->
       rd l (i * (if 1 <? length l then 1 else 0)) = Ok (nth (if length l =? 1 then 0 else i) l d0)).
    { intros l d0 Pl Nl. destruct (Nat.ltb_spec 1 (length l)); destruct (Nat.eqb_spec (length l) 1); try lia.
      - rewrite Nat.mul_1_r. apply rd_nth. lia.
      - rewrite Nat.mul_0_r. apply rd_nth. lia. }
    rewrite (G (snd a) x0), (G (snd b) y0) by auto. cbn [bind]. apply wr_ok. lia.
Qed.

Lemma binary_ok fresh f (a b : tens T) : wf a -> wf b ->
  (n_elems (fst a) = 1 \/ n_elems (fst b) = 1 \/ same_layout (fst a) (fst b) ->
   forward_pass fresh elementary_shaper (binary_elem f) [a; b] None =
     Ok (bshape (fst a) (fst b), map2 f (broadcast (n_elems (bshape (fst a) (fst b))) (snd a)) (broadcast (n_elems (bshape (fst a) (fst b))) (snd b)))) /\
  (~ (n_elems (fst a) = 1 \/ n_elems (fst b) = 1 \/ same_layout (fst a) (fst b)) ->
   forward_pass fresh elementary_shaper (binary_elem f) [a; b] None = Throw).
Proof.
  intros [Fa La] [Fb Lb]. destruct (shaper_binary (fst a) (fst b) Fa Fb) as [S1 S2]. split; intros H.
  2:{ unfold forward_pass. cbn [map]. now rewrite S2. }
  apply forward_fresh; [now apply S1|unfold bshape; destruct (_ =? _); auto using ushape_def|].
  apply binary_elem_ok; auto; [now split|now split|]. now rewrite map_length, seq_length.
Qed.
(** ---- axial ---- *)
Lemma remove_at_length {A} k (l : list A) : k < length l -> length (remove_at k l) = length l - 1.
Proof. intros H. unfold remove_at. rewrite app_length, firstn_length, skipn_length. lia. Qed.

Lemma offset_remove k : forall s c, k < length s -> length c = length s ->
  offset (set_nth k 1 s) (set_nth k 0 c) = offset (remove_at k s) (remove_at k c).
Proof.
  induction k as [|k IH]; intros [|d s] [|x c] Hk Hl; cbn in Hk, Hl; try lia.
  - unfold remove_at. cbn. lia.
  - unfold remove_at in *. cbn [firstn skipn set_nth app offset]. rewrite IH by lia. reflexivity.
Qed.

Lemma removelast_remove_at {A} (l : list A) : removelast l = remove_at (length l - 1) l.
Proof.
  destruct (Nat.eq_dec (length l) 0) as [E|E]; [destruct l; [reflexivity|discriminate]|].
  unfold remove_at. rewrite skipn_all2 by lia. rewrite app_nil_r. rewrite removelast_firstn_len. f_equal. lia.
Qed.

Lemma offset_short_app s c r : length c = length s -> offset s (c ++ r) = offset s c.
Proof. revert c; induction s as [|d s IH]; intros [|x c] H; cbn in *; try lia. rewrite IH; lia. Qed.

Lemma axial_index_ok axis s i : defined s -> 1 < length s -> axis < length s -> i < prod s ->
  (axis = 0 -> nth 0 s 0 <> nth 1 s 0 \/ nth 0 s 0 = 1) ->
  axial_index axis s (reduced axis s) s i = Ok (offset (remove_at axis s) (remove_at axis (coords s i))).
Proof.
  intros [Hn HF] Hr Ha Hi H0. unfold axial_index, reduced. destruct (Nat.eqb_spec (length s) 1); [lia|].
  rewrite coordinate_from_idx_coords by auto. cbn [bind].
  destruct (Nat.eqb_spec axis 0) as [->|Hne].
  - destruct s as [|d0 [|d1 s]]; cbn in Hr; try lia. cbn [tl]. specialize (H0 eq_refl). cbn [nth] in H0.
    cbn [rd nth_error bind Nat.add]. destruct (Nat.eqb_spec d1 d0) as [->|Hd]; cbn [negb].
    + assert (d0 = 1) by lia. subst d0. cbn [length Nat.leb bind Nat.eqb Nat.ltb]. f_equal.
      unfold remove_at. cbn [firstn skipn app coords]. rewrite Nat.div_1_r.
      symmetry. change (i mod 1 :: coords s (i / 1)) with (coords (1 :: s) i).
      cbn [prod] in Hi. apply (offset_coords_lt (1 :: s)). now inversion HF. cbn [prod]. lia.
    + rewrite Nat.eqb_refl. cbn [negb]. unfold remove_at. cbn [firstn skipn app].
      change (coords (d0 :: d1 :: s) i) with (i mod d0 :: coords (d1 :: s) (i / d0)). cbn [skipn].
      apply flat_idx_offset; cbn; discriminate.
  - destruct (Nat.eqb_spec (length s - 1) axis) as [Hl|Hl].
    + assert (Lr : length (removelast s) = axis). { rewrite removelast_remove_at, remove_at_length by lia. lia. }
      rewrite Lr, Nat.leb_refl. cbn [bind]. rewrite wr_ok by (rewrite coords_length; lia). cbn [bind].
      assert (Nr : removelast s <> []) by (intros E; rewrite E in Lr; cbn in Lr; lia).
      rewrite flat_idx_offset; auto.
      * f_equal. rewrite removelast_remove_at, Hl.
        assert (Es : set_nth axis 0 (coords s i) = remove_at axis (coords s i) ++ [0]).
        { assert (Lc : length (coords s i) = S axis) by (rewrite coords_length; lia). unfold remove_at.
          rewrite (skipn_all2 (coords s i)) by lia. rewrite app_nil_r. generalize (coords s i) Lc. clear.
          induction axis as [|k IH]; intros [|x c] L; cbn in *; try lia; [destruct c; [reflexivity|discriminate]|]. f_equal. apply IH. lia. }
        rewrite Es. apply offset_short_app. rewrite !remove_at_length; rewrite ?coords_length; lia.
      * intros E. apply (f_equal (@length nat)) in E. rewrite length_set_nth, coords_length in E. cbn in E. lia.
    + rewrite length_set_nth. destruct (Nat.leb_spec (length s) axis); [lia|].
      rewrite (rd_nth (set_nth axis 1 s) axis 0) by (rewrite length_set_nth; lia). cbn [bind].
      rewrite nth_set_nth, Nat.eqb_refl. destruct (Nat.ltb_spec axis (length s)); [|lia]. cbn [andb Nat.eqb].
      rewrite (rd_nth s axis 0) by lia. cbn [bind].
      pose proof (coords_in_bounds s i HF) as Hin. apply in_bounds_nth in Hin. destruct Hin as [Lc Hin]. specialize (Hin axis Ha).
      destruct (Nat.ltb_spec 1 (nth axis s 0)) as [G1|G1].
      * rewrite wr_ok by (rewrite coords_length; lia). cbn [bind]. assert (Nr : set_nth axis 1 s <> []) by (intros E; apply (f_equal (@length nat)) in E; rewrite length_set_nth in E; cbn in E; lia).
        rewrite flat_idx_offset; auto.
        -- f_equal. apply offset_remove; auto.
        -- intros E. apply (f_equal (@length nat)) in E. rewrite length_set_nth, coords_length in E. cbn in E. lia.
      * f_equal. rewrite <- offset_remove by auto.
        assert (P : 0 < nth axis s 0) by (apply nth_pos; [split; auto|auto]).
        assert (E1 : set_nth axis 1 s = s) by (replace 1 with (nth axis s 0) by lia; apply set_nth_self).
        assert (E2 : set_nth axis 0 (coords s i) = coords s i).
        { replace 0 with (nth axis (coords s i) 0) at 1 by lia. apply set_nth_self. }
        rewrite E1, E2. symmetry. now apply offset_coords_lt.
Qed.
End E.
