(** Property lemmas about the convolution layer (C58). *)
From Coq Require Import String NArith.
From Verif Require Import Common ShapeModel ShapeSpec ShapeProofs TransformModel TransformSpec TransformProofs CrossCorrProofs TransformLaws ElemModel ElemProofs GradModel MlpModel ConvModel ConvSpec.

Section facts.
Context {T : Type}.
Notation cstore := (@cstore T).

Lemma nth_error_app_new (st : cstore) s : nth_error (st ++ [s]) (length st) = Some s.
Proof. rewrite nth_error_app2, Nat.sub_diag by lia. reflexivity. Qed.
Lemma nth_error_app_old (st l : cstore) p x : nth_error st p = Some x -> nth_error (st ++ l) p = Some x.
Proof. intros H. rewrite nth_error_app1; [exact H|]. now apply nth_error_lt in H. Qed.

Lemma set_nth_app1 {B} i (a : B) l r : i < length l -> set_nth i a (l ++ r) = set_nth i a l ++ r.
Proof. revert i. induction l as [|x l IH]; intros [|i] H; cbn in *; try lia; auto. rewrite IH by lia. reflexivity. Qed.

Lemma copy_ok scope (l : conv_layer) (st : cstore) vw vb : var_at st (cv_w l) vw -> var_at st (cv_b l) vb ->
  conv_copy scope l st = Ok (mkConv scope (length st) (S (length st)),
    st ++ [Live (relabel (scope ++ "_weight")%string vw); Live (relabel (scope ++ "_bias")%string vb)]).
Proof.
  unfold var_at, conv_copy, cclone. intros -> Hb. unfold calloc at 1. cbn [bind].
  rewrite (nth_error_app_old _ _ _ _ Hb). unfold calloc. cbn [bind]. rewrite app_length, <- app_assoc. cbn. now rewrite Nat.add_1_r.
Qed.

Lemma take_ok scope (l : conv_layer) (st : cstore) vw vb : cv_w l <> cv_b l -> var_at st (cv_w l) vw -> var_at st (cv_b l) vb ->
  conv_take scope l st = Ok (mkConv scope (length st) (S (length st)),
    set_nth (cv_b l) Husk (set_nth (cv_w l) Husk st) ++ [Live vw; Live vb]).
Proof.
  unfold var_at, conv_take, cmove. intros Hne Hw Hb. rewrite Hw. unfold calloc at 1. cbn [bind].
  pose proof (nth_error_lt _ _ _ Hw) as Lw. pose proof (nth_error_lt _ _ _ Hb) as Lb.
  rewrite nth_error_app1 by (now rewrite length_set_nth). rewrite nth_error_set_nth_neq, Hb by auto. unfold calloc. cbn [bind].
  rewrite set_nth_app1 by (now rewrite length_set_nth). rewrite !app_length, !length_set_nth, <- app_assoc. cbn. now rewrite Nat.add_1_r.
Qed.

Lemma delete_ok (l : conv_layer) (st : cstore) : cv_w l <> cv_b l -> deletable st (cv_w l) -> deletable st (cv_b l) ->
  conv_delete l st = Ok (set_nth (cv_b l) Gone (set_nth (cv_w l) Gone st)).
Proof.
  unfold conv_delete. intros Hne Hw Hb.
  assert (E : forall p (st' : cstore), deletable st' p -> cdelete p st' = Ok (set_nth p Gone st')).
  { intros p st' H. unfold cdelete. destruct H as [[v H]|H]; unfold var_at, emptied in H; rewrite H; reflexivity. }
  rewrite (E _ _ Hw). cbn [bind]. apply E. unfold deletable, var_at, emptied in *. rewrite nth_error_set_nth_neq by auto. exact Hb.
Qed.
End facts.

Lemma untouched_app {T} ps (st : @cstore T) l : untouched ps st (st ++ l).
Proof. intros p Hp _. now rewrite nth_error_app1. Qed.
Lemma untouched_trans {T} ps qs (st st1 st2 : @cstore T) : length st <= length st1 -> untouched ps st st1 -> untouched qs st1 st2 -> untouched (ps ++ qs) st st2.
Proof. intros L H1 H2 p Hp Hn. rewrite in_app_iff in Hn. rewrite H2, H1 by (auto; lia). reflexivity. Qed.
Lemma untouched_set {T} a b x y (st : @cstore T) : untouched [a; b] st (set_nth b y (set_nth a x st)).
Proof. intros p _ Hn. cbn in Hn. rewrite !nth_error_set_nth_neq by (intros ->; tauto). reflexivity. Qed.
Lemma set2_at {T} a b x (st : @cstore T) p : a < length st -> b < length st -> p = a \/ p = b -> nth_error (set_nth b x (set_nth a x st)) p = Some x.
Proof.
  intros La Lb H. destruct (Nat.eq_dec p b) as [->|Hb].
  - now rewrite nth_error_set_nth_eq by (now rewrite length_set_nth).
  - destruct H as [->|H]; [|contradiction]. rewrite nth_error_set_nth_neq by auto. now rewrite nth_error_set_nth_eq.
Qed.

(** ---- C58 ---- *)

(** A new layer has a weight of shape [filter height, filter width, inputs, outputs], drawn
    uniformly from +-1/sqrt(height * width * inputs), and a zero bias of shape [outputs], both
    uninitialized and at new addresses. *)
Lemma C58_construct_lemma :
  forall (T : Type) (N : num T) (of_nat : nat -> T) fh fw n_in n_out scope (st : @cstore T),
    exists l st' w b, conv_new N of_nat fh fw n_in n_out scope st = (l, st') /\
      conv_variables l = [w; b] /\ w <> b /\ new_in st w /\ new_in st b /\ untouched [] st st' /\
      var_at st' w (mkVar (scope ++ "_weight")%string [fh; fw; n_in; n_out]
        (IUniform (n_div N (n_neg N (n_one N)) (n_sqrt N (of_nat (fh * fw * n_in)))) (n_div N (n_one N) (n_sqrt N (of_nat (fh * fw * n_in))))) None) /\
      var_at st' b (mkVar (scope ++ "_bias")%string [n_out] (IConst (n_zero N)) None).
Proof.
  intros T N of_nat fh fw n_in n_out scope st. unfold conv_new, calloc. do 4 eexists. split; [reflexivity|]. split; [reflexivity|].
  cbn [cv_w cv_b]. rewrite app_length. cbn [length]. split; [lia|]. split; [unfold new_in; lia|]. split; [unfold new_in; lia|].
  split; [|split].
  - rewrite <- app_assoc. apply untouched_app.
  - unfold var_at. apply nth_error_app_old. apply nth_error_app_new.
  - unfold var_at. rewrite nth_error_app2 by (rewrite app_length; cbn; lia). rewrite app_length. cbn [length]. rewrite Nat.sub_diag. reflexivity.
Qed.

(** Cloning: the clone's two variables are new, hold the same shape, initializer and data as
    the original's, and are labelled with the clone's scope; nothing else changes. *)
Lemma C58_clone_lemma :
  forall (T : Type) (l : conv_layer) scope (st : @cstore T) vw vb,
    var_at st (cv_w l) vw -> var_at st (cv_b l) vb ->
    exists l' st' w b, conv_clone l scope st = Ok (l', st') /\ conv_variables l' = [w; b] /\
      w <> b /\ new_in st w /\ new_in st b /\ untouched [] st st' /\
      cv_scope l' = (if String.eqb scope "" then cv_scope l ++ "_cpy" else scope)%string /\
      exists vw' vb', var_at st' w vw' /\ var_at st' b vb' /\ same_contents vw vw' /\ same_contents vb vb' /\
        v_label vw' = (cv_scope l' ++ "_weight")%string /\ v_label vb' = (cv_scope l' ++ "_bias")%string.
Proof.
  intros T l scope st vw vb Hw Hb. unfold conv_clone. rewrite (copy_ok _ l st vw vb Hw Hb).
  do 4 eexists. split; [reflexivity|]. split; [reflexivity|]. cbn [cv_w cv_b cv_scope]. split; [lia|]. split; [unfold new_in; lia|]. split; [unfold new_in; lia|].
  split; [apply untouched_app|]. split; [reflexivity|]. do 2 eexists.
  split; [unfold var_at; rewrite nth_error_app2, Nat.sub_diag by lia; reflexivity|].
  split; [unfold var_at; rewrite nth_error_app2 by lia; replace (S (length st) - length st) with 1 by lia; reflexivity|].
  repeat split.
Qed.

(** Copy assignment: nothing for the same object; otherwise the target's variables are deleted
    and replaced by new copies of the source's, which keeps its own. The target keeps its scope
    and labels the copies with it. *)
Lemma C58_assign_lemma :
  forall (T : Type) (this other : conv_layer) (st : @cstore T) vw vb,
    conv_assign true this this st = Ok (this, st) /\
    (cv_w this <> cv_b this -> deletable st (cv_w this) -> deletable st (cv_b this) ->
     var_at st (cv_w other) vw -> var_at st (cv_b other) vb ->
     (forall p, In p (conv_variables other) -> ~ In p (conv_variables this)) ->
     exists l' st' w b, conv_assign false this other st = Ok (l', st') /\ conv_variables l' = [w; b] /\
      w <> b /\ new_in st w /\ new_in st b /\ untouched (conv_variables this) st st' /\
      (forall p, In p (conv_variables this) -> deleted st' p) /\ cv_scope l' = cv_scope this /\
      exists vw' vb', var_at st' w vw' /\ var_at st' b vb' /\ same_contents vw vw' /\ same_contents vb vb' /\
        v_label vw' = (cv_scope this ++ "_weight")%string /\ v_label vb' = (cv_scope this ++ "_bias")%string).
Proof.
  intros T this other st vw vb. split; [reflexivity|]. intros Hne Dw Db Hw Hb Hd. unfold conv_assign.
  assert (Lt : cv_w this < length st /\ cv_b this < length st).
  { split; [destruct Dw as [[v Dw]|Dw]; exact (nth_error_lt _ _ _ Dw)|destruct Db as [[v Db]|Db]; exact (nth_error_lt _ _ _ Db)]. }
  rewrite delete_ok by auto. cbn [bind]. set (st1 := set_nth _ _ _).
  assert (L1 : length st1 = length st) by (unfold st1; now rewrite !length_set_nth).
  assert (U1 : untouched (conv_variables this) st st1) by apply untouched_set.
  assert (K : forall p x, In p (conv_variables other) -> nth_error st p = Some x -> nth_error st1 p = Some x).
  { intros p x Hp E. rewrite U1; [exact E|exact (nth_error_lt _ _ _ E)|exact (Hd p Hp)]. }
  rewrite (copy_ok _ other st1 vw vb) by (apply K; [cbn; auto|assumption]).
  do 4 eexists. split; [reflexivity|]. split; [reflexivity|]. cbn [cv_w cv_b cv_scope]. rewrite L1. split; [lia|]. split; [unfold new_in; lia|]. split; [unfold new_in; lia|].
  split. { intros p Hp Hn. rewrite nth_error_app1 by lia. now apply U1. }
  split. { intros p Hp. unfold deleted. rewrite nth_error_app1.
    - apply set2_at; try apply Lt. cbn in Hp. intuition.
    - rewrite L1. cbn in Hp. intuition lia. }
  split; [reflexivity|]. do 2 eexists.
  split; [unfold var_at; rewrite nth_error_app2, L1, Nat.sub_diag by lia; reflexivity|].
  split; [unfold var_at; rewrite nth_error_app2, L1 by lia; replace (S (length st) - length st) with 1 by lia; reflexivity|].
  repeat split.
Qed.

(** Moving: the new layer has the scope and, in new variables, exactly the old variables
    (labels included); the old layer keeps two emptied variables, so that deleting both layers
    deletes four different objects and no address twice. *)
Lemma C58_move_lemma :
  forall (T : Type) (l : conv_layer) (st : @cstore T) vw vb,
    cv_w l <> cv_b l -> var_at st (cv_w l) vw -> var_at st (cv_b l) vb ->
    exists l' old st' w b, conv_move l st = Ok (l', old, st') /\ conv_variables l' = [w; b] /\ conv_variables old = conv_variables l /\
      w <> b /\ new_in st w /\ new_in st b /\ untouched (conv_variables l) st st' /\ cv_scope l' = cv_scope l /\
      var_at st' w vw /\ var_at st' b vb /\ (forall p, In p (conv_variables l) -> emptied st' p) /\
      exists st1 st2, conv_delete old st' = Ok st1 /\ conv_delete l' st1 = Ok st2 /\
        forall p, In p (conv_variables l') \/ In p (conv_variables l) -> deleted st2 p.
Proof.
  intros T l st vw vb Hne Hw Hb. unfold conv_move. rewrite (take_ok _ l st vw vb Hne Hw Hb). cbn [bind].
  pose proof (nth_error_lt _ _ _ Hw) as Lw. pose proof (nth_error_lt _ _ _ Hb) as Lb.
  set (st1 := set_nth (cv_b l) Husk (set_nth (cv_w l) Husk st)).
  assert (L1 : length st1 = length st) by (unfold st1; now rewrite !length_set_nth).
  assert (E1 : forall p, In p (conv_variables l) -> emptied (st1 ++ [Live vw; Live vb]) p).
  { intros p Hp. unfold emptied. cbn in Hp. rewrite nth_error_app1 by (rewrite L1; intuition lia). apply set2_at; intuition. }
  do 5 eexists. split; [reflexivity|]. split; [reflexivity|]. split; [reflexivity|]. cbn [cv_w cv_b cv_scope]. split; [lia|]. split; [unfold new_in; lia|]. split; [unfold new_in; lia|].
  split. { intros p Hp Hn. rewrite nth_error_app1 by lia. now apply untouched_set. }
  split; [reflexivity|].
  assert (Aw : var_at (st1 ++ [Live vw; Live vb]) (length st) vw) by (unfold var_at; rewrite nth_error_app2, L1, Nat.sub_diag by lia; reflexivity).
  assert (Ab : var_at (st1 ++ [Live vw; Live vb]) (S (length st)) vb) by (unfold var_at; rewrite nth_error_app2, L1 by lia; replace (S (length st) - length st) with 1 by lia; reflexivity).
  split; [exact Aw|]. split; [exact Ab|]. split; [exact E1|].
  rewrite delete_ok; cbn [cv_w cv_b]; [|auto|right; apply E1; cbn; auto|right; apply E1; cbn; auto].
  do 2 eexists. split; [reflexivity|]. rewrite delete_ok; cbn [cv_w cv_b]; [|lia| |].
  - split; [reflexivity|]. intros p Hp. unfold deleted. set (s2 := st1 ++ _) in *.
    assert (L2 : length s2 = S (S (length st))) by (unfold s2; rewrite app_length, L1; cbn; lia).
    destruct Hp as [Hp|Hp]; cbn in Hp.
    + apply set2_at; rewrite ?length_set_nth; lia.
    + rewrite untouched_set.
      * apply set2_at; lia.
      * rewrite !length_set_nth. intuition lia.
      * cbn. intuition lia.
  - left. exists vw. unfold var_at. rewrite !nth_error_set_nth_neq by lia. exact Aw.
  - left. exists vb. unfold var_at. rewrite !nth_error_set_nth_neq by lia. exact Ab.
Qed.

(** Move assignment: nothing for the same object; otherwise the target's variables are
    deleted, the source's contents move into new variables of the target and the source keeps
    two emptied ones. Neither the target's scope nor the labels change. *)
Lemma C58_move_assign_lemma :
  forall (T : Type) (this other : conv_layer) (st : @cstore T) vw vb,
    conv_move_assign true this this st = Ok (this, st) /\
    (cv_w this <> cv_b this -> cv_w other <> cv_b other -> deletable st (cv_w this) -> deletable st (cv_b this) ->
     var_at st (cv_w other) vw -> var_at st (cv_b other) vb ->
     (forall p, In p (conv_variables other) -> ~ In p (conv_variables this)) ->
     exists l' st' w b, conv_move_assign false this other st = Ok (l', st') /\ conv_variables l' = [w; b] /\
      w <> b /\ new_in st w /\ new_in st b /\ untouched (conv_variables this ++ conv_variables other) st st' /\
      (forall p, In p (conv_variables this) -> deleted st' p) /\ (forall p, In p (conv_variables other) -> emptied st' p) /\
      cv_scope l' = cv_scope this /\ var_at st' w vw /\ var_at st' b vb).
Proof.
  intros T this other st vw vb. split; [reflexivity|]. intros Hne Hne' Dw Db Hw Hb Hd. unfold conv_move_assign.
  assert (Lt : cv_w this < length st /\ cv_b this < length st).
  { split; [destruct Dw as [[v Dw]|Dw]; exact (nth_error_lt _ _ _ Dw)|destruct Db as [[v Db]|Db]; exact (nth_error_lt _ _ _ Db)]. }
  pose proof (nth_error_lt _ _ _ Hw) as Lw. pose proof (nth_error_lt _ _ _ Hb) as Lb.
  rewrite delete_ok by auto. cbn [bind]. set (st1 := set_nth (cv_b this) Gone (set_nth (cv_w this) Gone st)).
  assert (L1 : length st1 = length st) by (unfold st1; now rewrite !length_set_nth).
  assert (U1 : untouched (conv_variables this) st st1) by apply untouched_set.
  assert (K : forall p x, In p (conv_variables other) -> nth_error st p = Some x -> nth_error st1 p = Some x).
  { intros p x Hp E. rewrite U1; [exact E|exact (nth_error_lt _ _ _ E)|exact (Hd p Hp)]. }
  rewrite (take_ok _ other st1 vw vb Hne' (K _ _ (or_introl eq_refl) Hw) (K _ _ (or_intror (or_introl eq_refl)) Hb)).
  set (st2 := set_nth (cv_b other) Husk (set_nth (cv_w other) Husk st1)).
  assert (L2 : length st2 = length st) by (unfold st2; now rewrite !length_set_nth).
  assert (U2 : untouched (conv_variables other) st1 st2) by apply untouched_set.
  do 4 eexists. split; [reflexivity|]. split; [reflexivity|]. cbn [cv_w cv_b cv_scope]. rewrite L1. split; [lia|]. split; [unfold new_in; lia|]. split; [unfold new_in; lia|].
  split. { intros p Hp Hn. rewrite in_app_iff in Hn. rewrite nth_error_app1 by lia. rewrite U2, U1; auto. lia. }
  split. { intros p Hp. assert (Hl : p < length st) by (cbn in Hp; intuition lia). unfold deleted. rewrite nth_error_app1 by lia.
    rewrite U2; [|lia|intros Ho; exact (Hd p Ho Hp)]. apply set2_at; try apply Lt. cbn in Hp. intuition. }
  split. { intros p Hp. assert (Hl : p < length st) by (cbn in Hp; intuition lia). unfold emptied. rewrite nth_error_app1 by lia.
    apply set2_at; [lia|lia|]. cbn in Hp. intuition. }
  split; [reflexivity|].
  split; [unfold var_at; rewrite nth_error_app2, L2, Nat.sub_diag by lia; reflexivity|].
  unfold var_at; rewrite nth_error_app2, L2 by lia; replace (S (length st) - length st) with 1 by lia; reflexivity.
Qed.

Lemma nats_N l : map N.to_nat (map N.of_nat l) = l.
Proof. rewrite map_map. rewrite <- (map_id l) at 2. apply map_ext. apply Nat2N.id. Qed.
Lemma map_set_nth {A B} (f : A -> B) i x l : map f (set_nth i x l) = set_nth i (f x) (map f l).
Proof. revert i. induction l as [|y l IH]; intros [|i]; cbn; auto. now rewrite IH. Qed.

Lemma corr_shaper_ok d1 d2 ins fs i1 i2 f1 f2 : d1 <> d2 ->
  nth_error ins d1 = Some i1 -> nth_error ins d2 = Some i2 -> nth_error fs d1 = Some f1 -> nth_error fs d2 = Some f2 ->
  f1 + 1 <= i1 -> f2 + 1 <= i2 -> (N.of_nat i1 < 2 ^ 64)%N -> (N.of_nat i2 < 2 ^ 64)%N ->
  corr_shaper d1 d2 [ins; fs] = Ok (set_nth d2 (i2 - f2 - 1) (set_nth d1 (i1 - f1 - 1) ins)).
Proof.
  intros Hne H1 H2 H3 H4 L1 L2 B1 B2. unfold corr_shaper. cbn [rd nth_error bind].
  rewrite (C48_cross_corr_shape_lemma d1 d2 _ _ (N.of_nat i1) (N.of_nat f1) (N.of_nat i2) (N.of_nat f2)); auto;
    try (rewrite nth_error_map; now (rewrite H1 || rewrite H2 || rewrite H3 || rewrite H4)); try lia.
  cbn [bind]. rewrite !map_set_nth, nats_N. rewrite !N2Nat.inj_sub, !Nat2N.id. reflexivity.
Qed.

Lemma flip_pass {T} fresh dims (t : tens T) : is_fully_defined (fst t) = true -> Forall (fun d => d < length (fst t)) dims -> length (snd t) = n_elems (fst t) ->
  exists t', forward_pass fresh (shaper1 (fun s => Ok (flip_shape s))) (forward1 (flip_fwd dims)) [t] None = Ok (fst t, t') /\ length t' = n_elems (fst t).
Proof.
  destruct t as [s d]. cbn [fst snd]. intros F HF L.
  destruct (C20_flip_elements_lemma T s dims d (map fresh (seq 0 (n_elems s))) F HF L) as (_ & t' & E & Lt & _); [now rewrite map_length, seq_length|].
  exists t'. split; [|exact Lt]. apply forward_fresh; [reflexivity|exact F|]. cbn [map fst snd]. unfold forward1. cbn [rd nth_error bind]. exact E.
Qed.

(** The value of conv2d never depends on the filter's data. *)
Lemma C58_conv2d_ignores_filter_refuted_lemma :
  forall (T : Type) (N : num T) fresh d1 d2 (a f1 f2 : tens T),
    fst f1 = fst f2 -> is_fully_defined (fst f1) = true -> length (snd f1) = n_elems (fst f1) -> length (snd f2) = n_elems (fst f2) ->
    d1 < length (fst f1) -> d2 < length (fst f1) ->
    conv2d_value N fresh d1 d2 a f1 = conv2d_value N fresh d1 d2 a f2.
Proof.
  intros T N fresh d1 d2 a f1 f2 E F L1 L2 H1 H2. unfold conv2d_value.
  destruct (flip_pass fresh [d1; d2] f1 F) as (t1 & E1 & _); auto.
  destruct (flip_pass fresh [d1; d2] f2) as (t2 & E2 & _); [congruence|rewrite <- E; auto|congruence|].
  rewrite E1, E2, E. cbn [bind]. unfold forward_pass. cbn [map fst snd]. reflexivity.
Qed.

(** No call of the layer has a value: with an input more than one larger than the filter in
    height and width evaluating it reads outside the input, with an input exactly one larger it
    throws (the declared shape has a zero). *)
Lemma C58_call_refuted_lemma :
  forall (T : Type) (N : num T) fresh h w rest fh fw n_in n_out (x wdata bdata : list T),
    is_fully_defined (h :: w :: rest) = true -> is_fully_defined [fh; fw; n_in; n_out] = true ->
    length x = n_elems (h :: w :: rest) -> length wdata = n_elems [fh; fw; n_in; n_out] ->
    (N.of_nat h < 2 ^ 64)%N -> (N.of_nat w < 2 ^ 64)%N -> fh < h -> fw < w ->
    conv_value N fresh (h :: w :: rest, x) ([fh; fw; n_in; n_out], wdata) ([n_out], bdata) =
      (if (h =? fh + 1) || (w =? fw + 1) then Throw else UB).
Proof.
  intros T N fresh h w rest fh fw n_in n_out x wdata bdata Fi Ff Li Lw Bh Bw Hh Hw. unfold conv_value, conv2d_value.
  destruct (flip_pass fresh [0; 1] ([fh; fw; n_in; n_out], wdata)) as (wf & E & _); auto; [repeat constructor|].
  rewrite E. cbn [bind fst]. unfold forward_pass at 1. cbn [map fst snd].
  rewrite (corr_shaper_ok 0 1 _ _ h w fh fw); auto; try lia. cbn [bind set_nth].
  pose proof (proj2 (proj1 (is_fully_defined_iff _) Fi)) as Pi. pose proof (proj2 (proj1 (is_fully_defined_iff _) Ff)) as Pf.
  inversion Pi as [|? ? Ph Pi']; subst. inversion Pi' as [|? ? Pw Pr]; subst. inversion Pf as [|? ? Pfh Pf']; subst. inversion Pf' as [|? ? Pfw _]; subst.
  destruct (is_fully_defined (h - fh - 1 :: w - fw - 1 :: rest)) eqn:D.
  - apply is_fully_defined_iff in D. destruct D as [_ D]. inversion D as [|? ? Q1 D']; subst. inversion D' as [|? ? Q2 _]; subst.
    destruct (Nat.eqb_spec h (fh + 1)); [lia|]. destruct (Nat.eqb_spec w (fw + 1)); [lia|]. cbn [orb].
    unfold corr_forward. cbn [rd nth_error bind].
    pose proof (C48_cross_corr_always_out_of_bounds_refuted_lemma T (n_zero N) (n_add N) (n_mul N) 0 1 (h :: w :: rest) h w fh fw x wf
      (map fresh (seq 0 (n_elems (h - fh - 1 :: w - fw - 1 :: rest)))) Fi ltac:(lia) eq_refl eq_refl ltac:(lia) ltac:(lia) ltac:(lia) ltac:(lia) Li) as U.
    cbn [set_nth] in U. rewrite U. reflexivity.
  - destruct (Nat.eqb_spec h (fh + 1)); [reflexivity|]. destruct (Nat.eqb_spec w (fw + 1)); [reflexivity|]. exfalso.
    assert (D' : is_fully_defined (h - fh - 1 :: w - fw - 1 :: rest) = true); [|congruence].
    apply is_fully_defined_iff. split; [discriminate|]. constructor; [lia|]. constructor; [lia|exact Pr].
Qed.

(** a layer, a clone, an assignment, a move and a call on a 5x5 image *)
Lemma C58_nonvacuous_lemma :
  let N := {| n_zero := 0; n_one := 1; n_two := 2; n_add := Nat.add; n_sub := Nat.sub; n_mul := Nat.mul; n_div := Nat.div; n_neg := fun x => x; n_abs := fun x => x;
     n_sin := fun x => x; n_cos := fun x => x; n_tan := fun x => x; n_exp := fun x => x; n_sqrt := Nat.sqrt; n_round := fun x => x; n_log := fun x => x; n_pow := Nat.pow;
     n_eqb := Nat.eqb; n_ltb := Nat.ltb |} in
  let '(l, st) := conv_new N (fun n => n) 2 2 1 3 "conv" [] in
  conv_variables l = [0; 1] /\
  (exists l' st', conv_clone l "" st = Ok (l', st') /\ conv_variables l' = [2; 3] /\ cv_scope l' = "conv_cpy"%string /\
    exists st'', conv_assign false l l' st' = Ok (mkConv "conv" 4 5, st'') /\ deleted st'' 0 /\ deleted st'' 1 /\ ~ deleted st'' 2) /\
  (exists l' old st', conv_move l st = Ok (l', old, st') /\ conv_variables l' = [2; 3] /\ emptied st' 0) /\
  conv_value N (fun _ => 0) ([5; 5], seq 0 25) ([2; 2; 1; 3], repeat 1 12) ([3], [0; 0; 0]) = UB /\
  conv_value N (fun _ => 0) ([3; 5], seq 0 15) ([2; 2; 1; 3], repeat 1 12) ([3], [0; 0; 0]) = Throw.
Proof.
  cbn [conv_new calloc]. split; [reflexivity|]. split.
  - do 2 eexists. split; [vm_compute; reflexivity|]. split; [reflexivity|]. split; [reflexivity|].
    eexists. split; [vm_compute; reflexivity|]. split; [reflexivity|]. split; [reflexivity|]. intros H. discriminate H.
  - split; [do 3 eexists; split; [vm_compute; reflexivity|]; split; reflexivity|]. split; vm_compute; reflexivity.
Qed.
