(** Property lemmas about matmul (C21, C22). *)
From Coq Require Import Ring Ring_theory ZArith.
From Verif Require Import Common ShapeModel ShapeSpec ShapeProofs FitModel FitProofs TransformModel TransformSpec TransformProofs TransformLaws.
From Verif Require Import MemModel MemProofs MatmulModel MatmulSpec MatmulProofs Matmul2Proofs.

(** Result shape: for fully defined shapes whose ranks are both above two, the product is
    accepted exactly when the inner dimensions agree (number of columns of the first, rows of
    the second) and the dimensions beyond the second agree up to trailing ones; the result is
    columns of the second, rows of the first, then the batch dimensions. Anything else
    throws. *)
Lemma C21_matmul_shape_lemma :
  forall al bl : shape, is_fully_defined al = true -> is_fully_defined bl = true ->
    2 < length al -> 2 < length bl ->
    (forall outs, matmul_shaper al bl = Ok outs <->
       nth 0 al 1 = nth 1 bl 1 /\ exists beyond, same_batch al bl beyond /\ outs = nth 0 bl 1 :: nth 1 al 1 :: beyond) /\
    (~ (nth 0 al 1 = nth 1 bl 1 /\ exists beyond, same_batch al bl beyond) -> matmul_shaper al bl = Throw).
Proof.
  intros al bl Fa Fb Ha Hb. apply is_fully_defined_iff in Fa, Fb.
  destruct (shaper_cases al bl Fa Fb) as [S1 [_ S3]].
  assert (Hm : 2 < Nat.min (length al) (length bl)) by lia.
  assert (Thr : ~ (nth 0 al 1 = nth 1 bl 1 /\ exists beyond, same_batch al bl beyond) -> matmul_shaper al bl = Throw).
  { intros H. apply S3. destruct (Nat.eq_dec (nth 0 al 1) (nth 1 bl 1)); [right; split; auto|now left].
  }
  split; auto. intros outs. split.
  - intros E. destruct (Nat.eq_dec (nth 0 al 1) (nth 1 bl 1)) as [Ei|Ei].
    + split; auto.
      assert (D : (exists beyond, same_batch al bl beyond) \/ ~ exists beyond, same_batch al bl beyond).
      { assert (Dec : forall beyond, {same_batch al bl beyond} + {~ same_batch al bl beyond}).
        { intros beyond. destruct (list_eq_dec Nat.eq_dec (skipn 2 al) (beyond ++ repeat 1 (length al - 2 - length beyond))) as [E1|E1];
            [destruct (list_eq_dec Nat.eq_dec (skipn 2 bl) (beyond ++ repeat 1 (length bl - 2 - length beyond))) as [E2|E2];
              [destruct (Nat.eq_dec (length al - 2 - length beyond) 0) as [E3|E3]; [|destruct (Nat.eq_dec (length bl - 2 - length beyond) 0) as [E4|E4]]|]|].
          - left. exists (length al - 2 - length beyond), (length bl - 2 - length beyond). auto.
          - left. exists (length al - 2 - length beyond), (length bl - 2 - length beyond). auto.
          - right. intros [k [j [H1 [H2 H3]]]]. apply (f_equal (@length nat)) in H1, H2.
            rewrite skipn_length, app_length, repeat_length in H1, H2. lia.
          - right. intros [k [j [H1 [H2 H3]]]]. apply E2. rewrite H2 at 1. f_equal. f_equal. apply (f_equal (@length nat)) in H2.
            rewrite skipn_length, app_length, repeat_length in H2. lia.
          - right. intros [k [j [H1 [H2 H3]]]]. apply E1. rewrite H1 at 1. f_equal. f_equal. apply (f_equal (@length nat)) in H1.
            rewrite skipn_length, app_length, repeat_length in H1. lia. }
        set (cand := skipn 2 (firstn (Nat.min (length al) (length bl)) al)).
        destruct (Dec cand) as [H|H]; [left; eauto|]. right. intros [beyond Hb']. apply H.
        assert (beyond = cand); [|congruence]. destruct Hb' as [k [j [H1 [H2 H3]]]]. unfold cand.
        assert (Lx : Nat.min (length al) (length bl) = 2 + length beyond).
        { apply (f_equal (@length nat)) in H1, H2. rewrite skipn_length, app_length, repeat_length in H1, H2. lia. }
        rewrite Lx. destruct al as [|x0 [|x1 al]]; cbn in Ha; try lia. cbn [skipn] in H1. subst al. cbn.
        rewrite firstn_app, Nat.sub_diag, firstn_all. cbn. now rewrite app_nil_r. }
      destruct D as [[beyond Hb']|Hn].
      * exists beyond. split; auto. rewrite (S1 Hm Ei beyond Hb') in E. now injection E.
      * rewrite Thr in E by tauto. discriminate.
    + rewrite Thr in E by tauto. discriminate.
  - intros [Ei [beyond [Hb' ->]]]. now apply S1.
Qed.

(** When one of the ranks is at most two, the dimensions of the other beyond the second are
    not looked at. *)
Lemma C21_matmul_shape_low_rank_lemma :
  forall al bl : shape, is_fully_defined al = true -> is_fully_defined bl = true ->
    length al <= 2 \/ length bl <= 2 ->
    (nth 0 al 1 = nth 1 bl 1 -> matmul_shaper al bl = Ok [nth 0 bl 1; nth 1 al 1]) /\
    (nth 0 al 1 <> nth 1 bl 1 -> matmul_shaper al bl = Throw).
Proof.
  intros al bl Fa Fb H. apply is_fully_defined_iff in Fa, Fb. destruct (shaper_cases al bl Fa Fb) as [_ [S2 S3]].
  split; intros E; [apply S2; auto; lia|apply S3; auto].
Qed.

Lemma shaper_structure al bl outs : is_fully_defined al = true -> is_fully_defined bl = true -> matmul_shaper al bl = Ok outs ->
  nth 0 al 1 = nth 1 bl 1 /\
  forall x y rest, in_bounds outs (x :: y :: rest) ->
    x < nth 0 bl 1 /\ y < nth 1 al 1 /\ belongs (skipn 2 al) rest /\ belongs (skipn 2 bl) rest.
Proof.
  intros Fa Fb Es.
  assert (Pos : forall l, is_fully_defined l = true -> belongs (skipn 2 l) []).
  { intros l Hl k. apply is_fully_defined_iff in Hl. destruct Hl as [_ Hl]. rewrite <- (firstn_skipn 2 l) in Hl.
    apply Forall_app in Hl. destruct Hl as [_ Hl]. destruct (Nat.lt_ge_cases k (length (skipn 2 l))) as [Hk|Hk].
    - pose proof (proj1 (Forall_forall _ _) Hl (nth k (skipn 2 l) 1) (nth_In _ _ Hk)) as H. cbn beta in H. destruct k; cbn in *; lia.
    - rewrite (nth_overflow (skipn 2 l)) by lia. destruct k; cbn; lia. }
  destruct (Nat.le_gt_cases (Nat.min (length al) (length bl)) 2) as [Hm|Hm].
  - destruct (C21_matmul_shape_low_rank_lemma al bl Fa Fb) as [L1 L2]; [lia|].
    destruct (Nat.eq_dec (nth 0 al 1) (nth 1 bl 1)) as [E|E]; [|rewrite L2 in Es by auto; discriminate].
    split; auto. rewrite L1 in Es by auto. injection Es as <-. intros x y rest Hin.
    inversion Hin as [|? ? ? ? Hx Hin']; subst. inversion Hin' as [|? ? ? ? Hy Hr]; subst. inversion Hr; subst. auto.
  - destruct (C21_matmul_shape_lemma al bl Fa Fb) as [L1 _]; try lia. apply L1 in Es. destruct Es as [E [beyond [Hb ->]]].
    split; auto. intros x y rest Hin.
    inversion Hin as [|? ? ? ? Hx Hin']; subst. inversion Hin' as [|? ? ? ? Hy Hr]; subst.
    split; auto. split; auto. destruct Hb as [k [j [H1 [H2 _]]]]. rewrite H1, H2.
    assert (G : forall n, belongs (beyond ++ repeat 1 n) rest).
    { intros n i. apply in_bounds_nth in Hr. destruct Hr as [Lr Hr]. destruct (Nat.lt_ge_cases i (length beyond)) as [Hi|Hi].
      - rewrite app_nth1 by auto. specialize (Hr i Hi). rewrite (nth_indep beyond 1 0) by auto. auto.
      - rewrite (nth_overflow rest) by lia. rewrite app_nth2 by lia. clear. generalize (i - length beyond). induction n; intros [|i']; cbn; auto; lia. }
    auto.
Qed.

Section General.
Context {T : Type} (zero : T) (add sub mul : T -> T -> T).

Lemma matmul_general fresh use thr al bl outs (dest a b : list T) :
  0 < thr -> (use = true -> strassen_one_correct zero add mul sub fresh thr) ->
  is_fully_defined al = true -> is_fully_defined bl = true ->
  matmul_shaper al bl = Ok outs -> prod (skipn 2 al) = prod (skipn 2 bl) ->
  length a = n_elems al -> length b = n_elems bl -> length dest = n_elems outs ->
  exists dest' k, matmul_fwd zero add sub mul fresh use thr al bl (0, 0) (1, 0) (2, 0) [dest; a; b] = Ok (dest' :: a :: b :: repeat [] k) /\
    length dest' = n_elems outs /\
    (forall x y rest, in_bounds outs (x :: y :: rest) -> nth_error dest' (offset outs (x :: y :: rest)) =
       Some (sumn zero add (fun z => mul (elem zero al a (z :: y :: rest)) (elem zero bl b (x :: z :: rest))) (nth 0 al 1))).
Proof.
  intros Ht Hst Fa Fb Es Ep La Lb Ld. apply is_fully_defined_iff in Fa, Fb.
  destruct (shaper_cases al bl Fa Fb) as [S1 [S2 S3]].
  set (X := nth 0 bl 1). set (Y := nth 1 al 1). set (Z := nth 0 al 1). set (B := prod (skipn 2 al)).
  assert (Ei : Z = nth 1 bl 1).
  { destruct (Nat.eq_dec Z (nth 1 bl 1)); auto. rewrite S3 in Es by auto. discriminate. }
  assert (PR : forall l, defined l -> prod l = nth 0 l 1 * nth 1 l 1 * prod (skipn 2 l)).
  { intros l [Hl _]. destruct l as [|d0 [|d1 l]]; [congruence| |]; cbn [nth skipn prod fold_right]; lia. }
  (* the batch part *)
  assert (HB : exists beyond, outs = X :: Y :: beyond /\ prod beyond = B /\
     (forall rest, in_bounds beyond rest -> offset (skipn 2 al) rest = offset beyond rest /\ offset (skipn 2 bl) rest = offset beyond rest) /\
     (length al < 2 -> beyond = []) /\ (length bl < 2 -> beyond = [])).
  { destruct (Nat.le_gt_cases (Nat.min (length al) (length bl)) 2) as [Hm|Hm].
    - rewrite (S2 Hm Ei) in Es. injection Es as <-. exists []. split; auto. split.
      + unfold B. cbn [prod fold_right].
        destruct (Nat.le_gt_cases (length al) 2).
        * rewrite skipn_all2 by lia. reflexivity.
        * rewrite Ep, skipn_all2 by lia. reflexivity.
      + split; [|auto]. intros rest Hr. inversion Hr. split; [destruct (skipn 2 al)|destruct (skipn 2 bl)]; reflexivity.
    - assert (Ex : ~ ~ exists beyond, same_batch al bl beyond).
      { intros Hn. rewrite S3 in Es by auto. discriminate. }
      assert (Hdec : exists beyond, same_batch al bl beyond).
      { destruct (C21_matmul_shape_lemma al bl) as [C _]; try (now apply is_fully_defined_iff); try lia.
        apply C in Es. destruct Es as [_ [beyond [Hb _]]]. eauto. }
      destruct Hdec as [beyond Hb]. rewrite (S1 Hm Ei beyond Hb) in Es. injection Es as <-. exists beyond. split; auto.
      destruct Hb as [k [j [H1 [H2 _]]]]. split; [|split; [|split; lia]].
      + unfold B. rewrite H1, prod_app, prod_repeat_1. lia.
      + intros rest Hr. pose proof (in_bounds_length _ _ Hr) as Lr. rewrite H1, H2.
        assert (Oa : forall r, offset (beyond ++ r) rest = offset beyond rest).
        { intros r. rewrite <- (app_nil_r rest) at 1. rewrite offset_app by auto. destruct r; cbn; lia. }
        now rewrite !Oa. }
  destruct HB as [beyond [Eo [EB [Off [Na Nb]]]]].
  assert (Do : defined outs).
  { rewrite Eo. split; [discriminate|]. constructor; [|constructor].
    - unfold X. destruct Fb as [Hn Fb]. destruct bl; [congruence|]. now inversion Fb.
    - unfold Y. destruct Fa as [Hn Fa]. destruct al as [|d0 [|d1 l]]; [congruence|cbn; lia|]. inversion Fa as [|? ? ? Fa']; inversion Fa'; auto.
    - assert (Hin : forall l, Forall (fun d => 0 < d) l -> Forall (fun d => 0 < d) (skipn 2 l)).
      { intros l Hl. rewrite <- (firstn_skipn 2 l) in Hl. now apply Forall_app in Hl. }
      destruct (Nat.le_gt_cases (Nat.min (length al) (length bl)) 2) as [Hm|Hm].
      + rewrite (S2 Hm Ei) in Es. rewrite <- Es in Eo || idtac. injection Es as Es. rewrite Eo in Es. injection Es as <-. constructor.
      + destruct (C21_matmul_shape_lemma al bl) as [C _]; try (now apply is_fully_defined_iff); try lia.
        apply C in Es. destruct Es as [_ [by' [[k [j [H1 _]]] E]]]. rewrite Eo in E. injection E as <-.
        destruct Fa as [_ Fa]. apply Hin in Fa. rewrite H1 in Fa. now apply Forall_app in Fa. }
  assert (Ld' : length dest = B * (X * Y)).
  { rewrite Ld, n_elems_prod by apply Do. rewrite Eo. cbn [prod fold_right]. fold (prod beyond). rewrite EB. lia. }
  assert (La' : length a = B * (Z * Y)).
  { rewrite La, n_elems_prod by apply Fa. rewrite PR by auto. fold Z Y B. lia. }
  assert (Lb' : length b = B * (X * Z)).
  { rewrite Lb, n_elems_prod by apply Fb. rewrite PR by auto. fold X. rewrite <- Ei, <- Ep. fold B. lia. }
  destruct (fwd_buffers zero add mul sub fresh use thr al bl dest a b Ht Hst Fa Fb Ld' La' Lb') as [dest' [k [E [L H]]]].
  exists dest', k. split; auto. split; [congruence|]. intros x y rest Hin. rewrite Eo in Hin |- *.
  inversion Hin as [|? ? ? ? Hx Hin']; subst. inversion Hin' as [|? ? ? ? Hy Hr]; subst.
  destruct (Off rest Hr) as [Oa Ob].
  pose proof (offset_lt _ _ Hr) as Hi. rewrite EB in Hi.
  replace (offset (X :: Y :: beyond) (x :: y :: rest)) with (offset beyond rest * (X * Y) + (x + X * y)) by (cbn [offset]; lia).
  etransitivity; [exact (H _ x y Hi Hx Hy)|]. f_equal. apply sumn_ext. intros z Hz. f_equal; unfold elem; f_equal.
  - destruct al as [|d0 [|d1 al']]; [now destruct Fa| |].
    + rewrite Na in * by (cbn; lia). inversion Hr; subst. cbn [offset]. unfold Y in Hy. cbn in Hy. assert (y = 0) by lia. subst y. lia.
    + cbn [offset]. cbn [skipn] in Oa. rewrite Oa. unfold Z, Y. cbn [nth]. lia.
  - destruct bl as [|d0 [|d1 bl']]; [now destruct Fb| |].
    + rewrite Nb in * by (cbn; lia). inversion Hr; subst. cbn [offset].
      cbn in Ei. assert (z = 0) by lia. subst z. unfold X. cbn. lia.
    + cbn [offset]. cbn [skipn] in Ob. rewrite Ob. cbn [nth] in Ei. rewrite <- Ei. unfold X. cbn [nth]. lia.
Qed.
End General.

(** The product itself, with the plain triple loop (a build without ENABLE_STRASSEN): for
    arguments of any rank whose shapes are accepted and whose batch sizes agree, the forward
    pass reads and writes only inside the three buffers, leaves the arguments alone, and the
    element at column x, row y and batch coordinate rest is the inner product of row y of the
    first argument and column x of the second. No algebraic law of the element type is
    needed. *)
Lemma C21_matmul_elements_lemma :
  forall (T : Type) (zero : T) (add sub mul : T -> T -> T) fresh (al bl outs : shape) (dest a b : list T),
    is_fully_defined al = true -> is_fully_defined bl = true ->
    matmul_shaper al bl = Ok outs -> prod (skipn 2 al) = prod (skipn 2 bl) ->
    length a = n_elems al -> length b = n_elems bl -> length dest = n_elems outs ->
    exists dest' k, matmul_fwd zero add sub mul fresh false STRASSEN_THRESHOLD al bl (0, 0) (1, 0) (2, 0) [dest; a; b]
        = Ok (dest' :: a :: b :: repeat [] k) /\
      length dest' = n_elems outs /\
      forall x y rest, in_bounds outs (x :: y :: rest) -> nth_error dest' (offset outs (x :: y :: rest)) =
        Some (sumn zero add (fun z => mul (elem zero al a (z :: y :: rest)) (elem zero bl b (x :: z :: rest))) (nth 0 al 1)).
Proof.
  intros. apply matmul_general; auto; [unfold STRASSEN_THRESHOLD; lia|discriminate].
Qed.

(** Both matrices optionally transposed: the transposes are separate nodes whose result is
    passed on, and the product is that of the transposed matrices. *)
Lemma C21_matmul_transposed_lemma :
  forall (T : Type) (zero : T) (add sub mul : T -> T -> T) fresh (tA tB : bool) (al bl al' bl' outs : shape) (dest a b a0 b0 a' b' : list T),
    is_fully_defined al = true -> is_fully_defined bl = true ->
    length a = n_elems al -> length b = n_elems bl -> length a0 = n_elems al -> length b0 = n_elems bl ->
    (if tA then transpose_shape (order_axes (0, 1)) al = Ok al' /\ transpose_fwd (order_axes (0, 1)) al' al a a0 = Ok a'
     else al' = al /\ a' = a) ->
    (if tB then transpose_shape (order_axes (0, 1)) bl = Ok bl' /\ transpose_fwd (order_axes (0, 1)) bl' bl b b0 = Ok b'
     else bl' = bl /\ b' = b) ->
    matmul_shaper al' bl' = Ok outs -> prod (skipn 2 al) = prod (skipn 2 bl) -> length dest = n_elems outs ->
    exists dest' k, matmul_fwd zero add sub mul fresh false STRASSEN_THRESHOLD al' bl' (0, 0) (1, 0) (2, 0) [dest; a'; b']
        = Ok (dest' :: a' :: b' :: repeat [] k) /\
      length dest' = n_elems outs /\
      forall x y rest, in_bounds outs (x :: y :: rest) -> nth_error dest' (offset outs (x :: y :: rest)) =
        Some (sumn zero add (fun z =>
          mul (elem zero al a (if tA then y :: z :: rest else z :: y :: rest))
              (elem zero bl b (if tB then z :: x :: rest else x :: z :: rest))) (nth (if tA then 1 else 0) al 1)).
Proof.
  intros T zero add sub mul fresh tA tB al bl al' bl' outs dest a b a0 b0 a' b' Fa Fb La Lb La0 Lb0 HA HB Es Ep Ld.
  (* what a transposed argument looks like *)
  assert (TR : forall (t : bool) (s s' : shape) (d d0 d' : list T), is_fully_defined s = true -> length d = n_elems s -> length d0 = n_elems s ->
     (if t then transpose_shape (order_axes (0, 1)) s = Ok s' /\ transpose_fwd (order_axes (0, 1)) s' s d d0 = Ok d' else s' = s /\ d' = d) ->
     is_fully_defined s' = true /\ length d' = n_elems s' /\ prod (skipn 2 s') = prod (skipn 2 s) /\ nth 0 s' 1 = nth (if t then 1 else 0) s 1 /\
     (forall p q rest, p < nth 0 s' 1 -> q < nth 1 s' 1 -> belongs (skipn 2 s') rest ->
        elem zero s' d' (p :: q :: rest) = elem zero s d (if t then q :: p :: rest else p :: q :: rest))).
  { intros t s s' d d0 d' F Ld1 Ld2 H. destruct t.
    2:{ destruct H as [-> ->]. repeat split; auto. }
    destruct H as [H1 H2]. pose proof F as Fd. apply is_fully_defined_iff in Fd.
    destruct s as [|s0 [|s1 s]]; [now destruct Fd| |].
    - (* a vector becomes a column *)
      destruct (C16_transpose_new_axis_lemma T [] s0 1 (0, 1) d d0 F ltac:(lia) ltac:(now left) Ld1 Ld2) as [d'' [E1 [E2 E3]]].
      cbn [app repeat] in E1, E2, E3. assert (X1 : [1; s0] = s') by congruence. subst s'. assert (X2 : d'' = d') by congruence. subst d''.
      assert (Hs0 : 0 < s0) by (destruct Fd as [_ Fd]; now inversion Fd).
      assert (N : n_elems [1; s0] = s0 /\ n_elems [s0] = s0) by (rewrite !n_elems_prod by discriminate; cbn; lia). destruct N as [N1 N2].
      assert (Ld3 : length d' = s0).
      { revert E2. unfold transpose_fwd. cbn [order_axes fst snd Nat.ltb Nat.leb length]. rewrite N1.
        destruct (memcpy_ok d0 d 0 0 s0) as [d3 [E4 [L4 _]]]; [lia|lia|]. intros E2. assert (d3 = d') by congruence. subst. lia. }
      split; [cbn; destruct s0; [lia|reflexivity]|]. split; [lia|]. split; auto. split; auto.
      intros p q rest Hp Hq Hr. cbn [nth] in Hp, Hq. assert (p = 0) by lia. subst p.
      specialize (E3 [] q ltac:(constructor) Hq). unfold elem. cbn [app] in E3.
      replace (offset [1; s0] (0 :: q :: rest)) with (offset [1; s0] [0; q]) by (cbn; destruct rest; lia).
      replace (offset [s0] (q :: 0 :: rest)) with (offset [s0] [q]) by (cbn; lia).
      apply nth_error_nth with (d := zero) in E3 || idtac.
      rewrite (nth_error_nth d' _ zero (x := nth (offset [s0] [q]) d zero)); auto. rewrite E3. apply nth_error_nth_lt. cbn. lia.
    - destruct (C16_transpose_elements_lemma T (s0 :: s1 :: s) 0 1 d d0 F ltac:(cbn; lia) ltac:(cbn; lia) Ld1 Ld2) as [o [d'' [E1 [Eo [En [E2 [L3 E3]]]]]]].
      assert (X1 : o = s') by congruence. rewrite X1 in *. clear X1 o E1. assert (X2 : d'' = d') by congruence. rewrite X2 in *. clear X2 d'' E2.
      assert (Sw : forall u v w, swapc 0 1 (u :: v :: w) = v :: u :: w).
      { intros u v w. apply nth_ext0; [rewrite length_swapc; reflexivity|]. rewrite length_swapc. intros k Hk. rewrite nth_swapc by auto. unfold swapped.
        destruct k as [|[|k]]; reflexivity. }
      rewrite Sw in Eo. subst s'.
      split. { apply is_fully_defined_iff. destruct Fd as [_ Fd]. inversion Fd as [|? ? Q1 Fd']; inversion Fd'; subst. split; [discriminate|]. now repeat constructor. }
      split; [lia|]. split; auto. split; auto.
      intros p q rest Hp Hq Hr. cbn [nth skipn] in *. unfold elem.
      (* a rest shorter or longer than the shape is read through its offset *)
      set (rest' := coords s (offset s rest)).
      assert (Po : Forall (fun d => 0 < d) s) by (destruct Fd as [_ Fd]; inversion Fd as [|? ? Q1 Fd']; now inversion Fd').
      assert (Ho : offset s rest' = offset s rest). { unfold rest'. apply offset_coords_lt; auto. now apply belongs_offset_lt. }
      assert (Hin : in_bounds (s1 :: s0 :: s) (p :: q :: rest')).
      { constructor; auto. constructor; auto. now apply coords_in_bounds. }
      specialize (E3 _ Hin). rewrite Sw in E3. cbn [offset] in *. rewrite Ho in E3.
      assert (Hoff : offset (s0 :: s1 :: s) (q :: p :: rest') < n_elems (s0 :: s1 :: s)).
      { rewrite n_elems_prod by discriminate. apply offset_lt. constructor; auto. constructor; auto. now apply coords_in_bounds. }
      cbn [offset] in Hoff. rewrite Ho in Hoff.
      apply nth_error_nth. rewrite E3. apply nth_error_nth_lt. lia. }
  destruct (TR tA al al' a a0 a' Fa La La0 HA) as [Fa' [La' [Pa [Na Ea]]]].
  destruct (TR tB bl bl' b b0 b' Fb Lb Lb0 HB) as [Fb' [Lb' [Pb [Nb Eb]]]].
  destruct (C21_matmul_elements_lemma T zero add sub mul fresh al' bl' outs dest a' b') as [dest' [k [E [L H]]]]; auto; [congruence|].
  exists dest', k. split; auto. split; auto. intros x y rest Hin. rewrite (H x y rest Hin). rewrite Na. f_equal.
  destruct (shaper_structure al' bl' outs Fa' Fb' Es) as [Ein Hst]. destruct (Hst x y rest Hin) as [Hx [Hy [Ba Bb]]].
  apply sumn_ext. intros z Hz. rewrite <- Na in Hz. rewrite Ea, Eb by (auto; lia). reflexivity.
Qed.

(** Finding: when one rank is at most two the extra dimensions of the other argument are not
    compared, so a batch against a single matrix is accepted and reads and writes past the
    buffers: with shapes [2;2;3] and [2;2] the result has 4 elements and the forward pass
    runs 3 matrices. *)
Lemma C21_matmul_batch_overrun_refuted_lemma :
  ~ (forall (al bl outs : shape) (dest a b : list Z),
      is_fully_defined al = true -> is_fully_defined bl = true -> matmul_shaper al bl = Ok outs ->
      length a = n_elems al -> length b = n_elems bl -> length dest = n_elems outs ->
      matmul_fwd 0%Z Z.add Z.sub Z.mul (fun _ _ => 0%Z) false STRASSEN_THRESHOLD al bl (0, 0) (1, 0) (2, 0) [dest; a; b] <> UB).
Proof.
  intros H. apply (H [2; 2; 3] [2; 2] [2; 2] (repeat 0%Z 4) (repeat 0%Z 12) (repeat 0%Z 4)); reflexivity.
Qed.

(** Finding: the other way around the batch of the second argument is silently dropped: the
    product of a matrix with a batch of three depends on the first of the three only. *)
Lemma C21_matmul_batch_dropped_refuted_lemma :
  matmul_shaper [2; 2] [2; 2; 3] = Ok [2; 2] /\
  forall b0 b1 b2 b3 (rest : list Z), length rest = 8 ->
    matmul_fwd 0%Z Z.add Z.sub Z.mul (fun _ _ => 0%Z) false STRASSEN_THRESHOLD [2; 2] [2; 2; 3] (0, 0) (1, 0) (2, 0)
      [[0; 0; 0; 0]; [1; 2; 3; 4]; b0 :: b1 :: b2 :: b3 :: rest]%Z =
    Ok [[1 * b0 + 2 * b2; 1 * b1 + 2 * b3; 3 * b0 + 4 * b2; 3 * b1 + 4 * b3]; [1; 2; 3; 4]; b0 :: b1 :: b2 :: b3 :: rest]%Z.
Proof.
  split; [reflexivity|]. intros b0 b1 b2 b3 rest _. cbn -[Z.mul Z.add]. repeat f_equal; lia.
Qed.

Lemma C21_matmul_nonvacuous_lemma :
  matmul_shaper [3; 2; 2] [2; 3; 2; 1] = Ok [2; 2; 2] /\
  is_fully_defined [3; 2; 2] = true /\ is_fully_defined [2; 3; 2; 1] = true /\ prod (skipn 2 [3; 2; 2]) = prod (skipn 2 [2; 3; 2; 1]) /\
  matmul_fwd 0%Z Z.add Z.sub Z.mul (fun _ _ => 0%Z) false STRASSEN_THRESHOLD [3; 2; 2] [2; 3; 2; 1] (0, 0) (1, 0) (2, 0)
    [[9; 9; 9; 9; 9; 9; 9; 9]; [1; 2; 3; 4; 5; 6; 7; 8; 9; 10; 11; 12]; [1; 0; 0; 1; 1; 1; 2; 0; 0; 2; 2; 2]]%Z
  = Ok [[4; 5; 10; 11; 32; 34; 44; 46]; [1; 2; 3; 4; 5; 6; 7; 8; 9; 10; 11; 12]; [1; 0; 0; 1; 1; 1; 2; 0; 0; 2; 2; 2]]%Z.
Proof.
  repeat split. Qed.

(** Padding: the common size is no smaller than any dimension asked for, it is a number not
    above the threshold times a power of two, and nothing is padded at or below the
    threshold. *)
Lemma C22_padding_lemma :
  forall thr n, 0 < thr ->
    n <= min_pad thr n /\ (exists k e, k <= thr /\ min_pad thr n = k * 2 ^ e) /\ (n <= thr -> min_pad thr n = n).
Proof. intros thr n H. destruct (min_pad_ok thr n H) as [H1 [[k [e H2]] H3]]. eauto 7. Qed.

(** Strassen's algorithm on three buffers, at any recursion depth: over every ring, for every
    threshold and every padded size the first buffer receives the product of the two others
    (whose contents it may overwrite), no access leaves a buffer, and all scratch buffers are
    freed. *)
Lemma C22_strassen_product_lemma :
  forall (T : Type) (zero one : T) (add mul sub : T -> T -> T) (opp : T -> T),
    ring_theory zero one add mul sub opp eq ->
    forall fresh thr n (c a b : list T), 0 < thr -> (exists k e, k <= thr /\ n = k * 2 ^ e) ->
    length c = n * n -> length a = n * n -> length b = n * n ->
    exists c' a' b' k, strassen zero add sub mul fresh thr n (0, 0) (1, 0) (2, 0) n [c; a; b] = Ok (c' :: a' :: b' :: repeat [] k) /\
      length c' = n * n /\ length a' = n * n /\ length b' = n * n /\
      forall x y, x < n -> y < n ->
        nth_error c' (x + n * y) = Some (sumn zero add (fun z => mul (nth (z + n * y) a zero) (nth (x + n * z) b zero)) n).
Proof.
  intros T zero one add mul sub opp Rth fresh thr n c a b Ht Hp Lc La Lb.
  destruct (strassen_ok zero one add mul sub opp Rth fresh thr n n (0, 0) (1, 0) (2, 0) [c; a; b]) as [m' [E [[k Ex] [H1 H2]]]]; auto.
  { lia. }
  { intros i Hi. unfold valid, padd. cbn. lia. }
  { intros i Hi. unfold valid, padd. cbn. lia. }
  { intros i Hi. unfold valid, padd. cbn. lia. }
  { now apply apart_block. }
  { now apply apart_block. }
  { now apply apart_block. }
  assert (Lm : length m' = 3 + k). { apply (f_equal (@length nat)) in Ex. unfold lay in Ex. rewrite app_length, !map_length, repeat_length in Ex. exact Ex. }
  destruct m' as [|c' [|a' [|b' rest]]]; cbn [length] in Lm; try lia.
  unfold lay in Ex. cbn [map app] in Ex. injection Ex as E1 E2 E3 E4.
  assert (Hrest : rest = repeat [] k).
  { assert (Lr : length rest = k) by lia. clear -E4 Lr. revert k E4 Lr. induction rest as [|r rest IH]; intros [|k] E4 Lr; cbn in *; try lia; auto.
    injection E4 as E5 E6. f_equal; [now apply length_zero_iff_nil|]. apply IH; auto. }
  exists c', a', b', k. rewrite Hrest in E. split; auto. split; [congruence|]. split; [congruence|]. split; [congruence|].
  intros x y Hx Hy. specialize (H1 x y Hx Hy). unfold mmul, MemProofs.get, padd in H1. cbn [fst snd nth Nat.add] in H1.
  rewrite <- H1. apply nth_error_nth_lt. rewrite E1, Lc. now apply idx_lt.
Qed.

(** The whole forward pass built with Strassen enabled: over every ring and for every
    threshold (the code's is 256) it produces the same result as the plain triple loop, for
    every size on either side of the threshold, rectangular shapes and batches included. The
    ring laws are needed: with floating point elements the two differ by rounding. *)
Lemma C22_strassen_matmul_lemma :
  forall (T : Type) (zero one : T) (add mul sub : T -> T -> T) (opp : T -> T),
    ring_theory zero one add mul sub opp eq ->
    forall fresh thr (al bl outs : shape) (dest a b : list T), 0 < thr ->
    is_fully_defined al = true -> is_fully_defined bl = true ->
    matmul_shaper al bl = Ok outs -> prod (skipn 2 al) = prod (skipn 2 bl) ->
    length a = n_elems al -> length b = n_elems bl -> length dest = n_elems outs ->
    exists dest' k j,
      matmul_fwd zero add sub mul fresh true thr al bl (0, 0) (1, 0) (2, 0) [dest; a; b] = Ok (dest' :: a :: b :: repeat [] k) /\
      matmul_fwd zero add sub mul fresh false thr al bl (0, 0) (1, 0) (2, 0) [dest; a; b] = Ok (dest' :: a :: b :: repeat [] j) /\
      forall x y rest, in_bounds outs (x :: y :: rest) -> nth_error dest' (offset outs (x :: y :: rest)) =
        Some (sumn zero add (fun z => mul (elem zero al a (z :: y :: rest)) (elem zero bl b (x :: z :: rest))) (nth 0 al 1)).
Proof.
  intros T zero one add mul sub opp Rth fresh thr al bl outs dest a b Ht Fa Fb Es Ep La Lb Ld.
  destruct (matmul_general zero add sub mul fresh true thr al bl outs dest a b) as [d1 [k [E1 [L1 H1]]]]; auto.
  { intros _. intros c' a' b' X Y Z P m. eapply strassen_one_ok; eauto. }
  destruct (matmul_general zero add sub mul fresh false thr al bl outs dest a b) as [d2 [j [E2 [L2 H2]]]]; auto; [discriminate|].
  assert (d2 = d1); [|subst d2; exists d1, k, j; auto].
  destruct (shaper_structure al bl outs Fa Fb Es) as [Ein Hst].
  assert (So : exists y z, outs = y :: z /\ z <> []).
  { clear -Es. unfold matmul_shaper in Es.
    repeat match type of Es with context [bind ?e _] => destruct e; cbn [bind] in Es; try discriminate end.
    destruct (_ =? _) in Es; [|discriminate]. injection Es as <-. eexists _, _. split; [reflexivity|discriminate]. }
  assert (Fo : Forall (fun d => 0 < d) outs).
  { destruct (Nat.le_gt_cases (Nat.min (length al) (length bl)) 2) as [Hm|Hm].
    - destruct (C21_matmul_shape_low_rank_lemma al bl Fa Fb) as [Q _]; [lia|]. rewrite Q in Es by auto. injection Es as <-.
      apply is_fully_defined_iff in Fa, Fb. destruct Fa as [Na Fa], Fb as [Nb Fb]. repeat constructor.
      + destruct bl; [congruence|]. now inversion Fb.
      + destruct al as [|? [|? ?]]; cbn; try lia. inversion Fa as [|? ? ? Fa']. now inversion Fa'.
    - destruct (C21_matmul_shape_lemma al bl Fa Fb) as [Q _]; try lia. apply Q in Es. destruct Es as [_ [by' [[k1 [j1 [S1 _]]] ->]]].
      apply is_fully_defined_iff in Fa, Fb. destruct Fa as [Na Fa], Fb as [Nb Fb].
      destruct bl as [|? ?]; [congruence|]. destruct al as [|? [|? al]]; cbn [length] in Hm; try lia.
      cbn [nth]. inversion Fa as [|? ? ? Fa']. inversion Fa' as [|? ? ? Fa'']. inversion Fb. constructor; auto. constructor; auto.
      cbn [skipn] in S1. subst al. now apply Forall_app in Fa''. }
  apply (list_eq_by_offset outs); auto.
  { split; auto. destruct So as [? [? [-> _]]]. discriminate. }
  intros c Hc. destruct So as [o1 [o2 [So1 So2]]]. destruct o2 as [|o2 o3]; [congruence|]. rewrite So1 in Hc.
  pose proof (in_bounds_length _ _ Hc) as Lc. destruct c as [|x [|y rest]]; cbn in Lc; try lia. rewrite <- So1 in Hc. rewrite H1, H2; auto.
Qed.

Lemma C22_strassen_nonvacuous_lemma :
  min_pad 256 513 = 516 /\ min_pad 2 3 = 4 /\
  matmul_fwd 0%Z Z.add Z.sub Z.mul (fun _ _ => 7%Z) true 1 [3; 2] [2; 3] (0, 0) (1, 0) (2, 0)
    [[9; 9; 9; 9]; [1; 2; 3; 4; 5; 6]; [1; 0; 0; 1; 1; 1]]%Z
  = Ok ([[4; 5; 10; 11]; [1; 2; 3; 4; 5; 6]; [1; 0; 0; 1; 1; 1]]%Z ++ repeat [] 27) /\
  ring_theory 0%Z 1%Z Z.add Z.mul Z.sub Z.opp eq.
Proof.
  split; [vm_compute; reflexivity|]. split; [reflexivity|]. split; [vm_compute; reflexivity|]. exact InitialRing.Zth. Qed.
