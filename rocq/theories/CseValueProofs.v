(** What reused nodes compute: sums and products in either order, double negation, double
    transposition, matmul with flags, repeated calls. *)
From Coq Require Import String Ascii Lia.
From Verif Require Import Common ShapeModel ShapeSpec ShapeProofs TransformModel TransformSpec TransformProofs TransformLaws MatmulModel ElemSpec ElemModel ElemProofs GradModel CseModel CseSpec CseProofs CseGraphProofs CseFullProofs.
Local Open Scope list_scope.

Lemma same_layout_sym a b : same_layout a b -> same_layout b a.
Proof. unfold same_layout. intuition congruence. Qed.
Lemma map2_comm {A B} (f : A -> A -> B) l l' : (forall x y, f x y = f y x) -> map2 f l l' = map2 f l' l.
Proof. intros H. revert l'. induction l as [|a l IH]; intros [|b l']; cbn; auto. now rewrite H, IH. Qed.

Section Value.
Context {T : Type} (N : num T) (fresh : nat -> T).

Lemma binary_commutes (f : T -> T -> T) (a b : tens T) : (forall x y, f x y = f y x) -> full a -> full b ->
  same_result (forward_pass fresh elementary_shaper (binary_elem f) [a; b] None) (forward_pass fresh elementary_shaper (binary_elem f) [b; a] None).
Proof.
  intros H Fa Fb. destruct (binary_ok fresh f a b Fa Fb) as [E1 E2]. destruct (binary_ok fresh f b a Fb Fa) as [E3 E4].
  assert (D : (n_elems (fst a) = 1 \/ n_elems (fst b) = 1 \/ same_layout (fst a) (fst b)) \/ ~ (n_elems (fst a) = 1 \/ n_elems (fst b) = 1 \/ same_layout (fst a) (fst b))).
  { unfold same_layout. destruct (Nat.eq_dec (n_elems (fst a)) 1); [auto|]. destruct (Nat.eq_dec (n_elems (fst b)) 1); [auto|].
    destruct (list_eq_dec Nat.eq_dec (fst a) (fst b)); [auto|]. destruct (Nat.eq_dec (length (fst a)) (length (fst b))); [right; intros [?|[?|[?|[? ?]]]]; contradiction|].
    destruct (list_eq_dec Nat.eq_dec (unpad (fst a)) (unpad (fst b))); [left; auto|right; intros [?|[?|[?|[? ?]]]]; contradiction]. }
  destruct D as [D|D].
  - rewrite E1 by auto. rewrite E3 by (destruct D as [D|[D|D]]; auto using same_layout_sym).
    destruct Fa as [Da La], Fb as [Db Lb].
    assert (En : n_elems (bshape (fst b) (fst a)) = n_elems (bshape (fst a) (fst b)) /\ same_layout (bshape (fst a) (fst b)) (bshape (fst b) (fst a))).
    { unfold bshape. destruct (Nat.eqb_spec (n_elems (fst b)) 1) as [Eb|Eb]; destruct (Nat.eqb_spec (n_elems (fst a)) 1) as [Ea|Ea]; unfold ushape; try (destruct (Nat.eqb_spec (n_elems (fst b)) 1); [|lia]); try (destruct (Nat.eqb_spec (n_elems (fst a)) 1); [|lia]).
      - split; [reflexivity|now left].
      - destruct (Nat.eqb_spec (n_elems (fst a)) 1); [lia|]. split; [reflexivity|now left].
      - destruct (Nat.eqb_spec (n_elems (fst b)) 1); [lia|]. split; [reflexivity|now left].
      - destruct D as [D|[D|D]]; try lia. split; [now apply same_layout_n|]. now apply same_layout_sym. }
    destruct En as [En Ls]. right. eexists _, _, _. split; [reflexivity|]. split; [|exact Ls]. rewrite En, (map2_comm f) by auto. reflexivity.
  - left. rewrite E2 by auto. rewrite E4; auto. intros [X|[X|X]]; apply D; auto using same_layout_sym.
Qed.
Lemma ones_of_prod s : prod s = 1 -> s = repeat 1 (length s).
Proof. induction s as [|x s IH]; cbn; [auto|]. intros H. apply Nat.eq_mul_1 in H. destruct H as [-> H]. f_equal. auto. Qed.
Lemma unpad_ones n : unpad (repeat 1 n) = [].
Proof. pose proof (unpad_window n [] 0 (or_introl eq_refl)) as H. cbn in H. now rewrite app_nil_r in H. Qed.
Lemma ushape_layout s : is_fully_defined s = true -> same_layout s (ushape s).
Proof.
  intros F. unfold ushape. destruct (Nat.eqb_spec (n_elems s) 1) as [E|]; [|now left].
  apply is_fully_defined_iff in F. rewrite n_elems_prod in E by apply F. apply ones_of_prod in E. rewrite E.
  destruct (Nat.eq_dec (length s) 1) as [->|D]; [now left|]. right. rewrite repeat_length. split; [exact D|]. rewrite unpad_ones. reflexivity.
Qed.
Lemma neg_neg (t tc : tens T) : (forall x, n_neg N (n_neg N x) = x) -> full tc ->
  forward_pass fresh elementary_shaper (transform_fwd (n_neg N)) [tc] None = Ok t ->
  same_result (Ok tc) (forward_pass fresh elementary_shaper (transform_fwd (n_neg N)) [t] None).
Proof.
  intros H F E. rewrite unary_ok in E by exact F. injection E as <-.
  rewrite unary_ok. 2:{ split; cbn [fst snd]; [now apply ushape_def, F|]. rewrite map_length, ushape_n. apply F. }
  cbn [fst snd]. right. exists (fst tc), (ushape (ushape (fst tc))), (snd tc). split; [now destruct tc|]. rewrite map_map.
  rewrite (map_ext _ (fun x => x)), map_id by auto. split; [reflexivity|].
  assert (U : ushape (ushape (fst tc)) = ushape (fst tc)). { unfold ushape. destruct (n_elems (fst tc) =? 1) eqn:Q; [reflexivity|now rewrite Q]. }
  rewrite U. apply ushape_layout, F.
Qed.
Lemma transpose_back i j (t tc : tens T) : full tc -> i < length (fst tc) -> j < length (fst tc) ->
  forward_pass fresh (shaper1 (transpose_shape (order_axes (i, j)))) (forward1 (transpose_fwd (order_axes (i, j)))) [tc] None = Ok t ->
  forward_pass fresh (shaper1 (transpose_shape (order_axes (i, j)))) (forward1 (transpose_fwd (order_axes (i, j)))) [t] None = Ok tc.
Proof.
  intros [F L] Hi Hj E. destruct tc as [s d]. cbn [fst snd] in *. unfold forward_pass, shaper1, forward1 in E. cbn [map fst snd rd nth_error bind] in E.
  destruct (C16_transpose_elements_lemma T s i j d (map fresh (seq 0 (n_elems s))) F Hi Hj L) as (o & d' & E1 & Eo & En & E2 & Ld & _). { now rewrite map_length, seq_length. }
  rewrite E1 in E. cbn [bind] in E.
  assert (Do : is_fully_defined o = true). { apply is_fully_defined_iff. rewrite Eo. apply swapc_defined; auto. now apply is_fully_defined_iff. }
  rewrite Do, En, E2 in E. cbn [bind] in E. injection E as <-.
  destruct (C16_transpose_twice_lemma T s i j d (map fresh (seq 0 (n_elems s))) (map fresh (seq 0 (n_elems s))) o d') as [B1 B2]; auto; try (now rewrite map_length, seq_length).
  unfold forward_pass, shaper1, forward1. cbn [map fst snd rd nth_error bind]. rewrite B1. cbn [bind]. rewrite F, B2. reflexivity.
Qed.
End Value.

Section Reuse.
Context {T : Type} (N : num T) (fresh : nat -> T) (strassen_on : bool) (of_nat : nat -> T) (show : T -> string).
Context (cmp_of : string -> T -> T -> bool) (Hshow : exact_printing show).
Context (pick : list nat -> option nat) (Hpick : picks pick).
Notation graph := (@graph T).
Notation sem := (sem N fresh strassen_on of_nat).
Notation gvalue := (gvalue N fresh strassen_on of_nat).
Notation make := (make N show pick).
Notation mat_arg := (mat_arg N show pick).
Notation make_mat := (make_mat N show pick).
Notation search := (search N show pick).
Notation gok := (gok N show cmp_of).

Lemma gvalue_full env g n t : gok g -> (forall k, full (env k)) -> gvalue env g n = Ok t -> full t.
Proof.
  intros G H E. destruct (nth_error g n) as [nd|] eqn:Hn.
  - destruct (G n nd Hn) as [G1 _]. rewrite (gvalue_node N fresh strassen_on of_nat env g n nd Hn) in E by (intros a Ha; now apply G1).
    destruct (g_op nd); [|injection E as <-; auto]. destruct (collect _ _ _ _ _ _ _); cbn [bind] in E; try discriminate. now apply sem_full in E.
  - exfalso. unfold CseModel.gvalue in E. assert (L : nth_error (values N fresh strassen_on of_nat env g []) n = None).
    { apply nth_error_None. rewrite values_length. apply nth_error_None in Hn. cbn. lia. }
    rewrite L in E. discriminate.
Qed.

(* matmul *)
Definition turned (flag : bool) (t x : tens T) : Prop :=
  if flag then sem (KTr (0, 1)) [t] = Ok x \/ sem (KTr (0, 1)) [x] = Ok t else x = t.
Lemma mat_arg_value env g flag a g' n t : gok g -> alive_at g a = true -> mat_arg g flag a = (g', n) -> gvalue env g a = Ok t ->
  (flag = true -> exists x, sem (KTr (0, 1)) [t] = Ok x) -> exists y, gvalue env g' n = Ok y /\ turned flag t y.
Proof.
  intros G A E V Ht. unfold CseModel.mat_arg in E. destruct flag.
  2:{ injection E as <- <-. exists t. split; auto. reflexivity. }
  destruct (Ht eq_refl) as [x Hx]. change (pick (audience g a "transpose_0_1")) with (search g (KTr (0, 1)) [a]) in E.
  assert (F : Forall2 (fun a t => gvalue env g a = Ok t) [a] [t]) by (constructor; auto).
  assert (Al : forall b, In b [a] -> alive_at g b = true) by (intros b [<-|[]]; auto).
  destruct (search g (KTr (0, 1)) [a]) as [m|] eqn:S.
  - injection E as <- <-. destruct (search_result N fresh strassen_on of_nat show cmp_of Hshow pick Hpick g (KTr (0, 1)) [a] m G I eq_refl S) as (_ & nd & op' & H1 & H2 & H3 & H4).
    cbn [is_clip] in H4. destruct H4 as [H4|[[] _]]. exists x. split; [|now left].
    rewrite <- Hx. apply (result_value N fresh strassen_on of_nat show cmp_of env g m (KTr (0, 1)) [a] [t] nd op'); auto.
  - destruct (shortcut N show g (KTr (0, 1)) [a]) as [c|] eqn:Sc.
    + destruct (shortcut_value N fresh strassen_on of_nat show cmp_of Hshow env g (KTr (0, 1)) [a] [t] c G I Sc F) as (t' & tc & [= <-] & E1 & E2).
      unfold CseModel.make in E. rewrite Sc in E. injection E as <- <-. exists tc. split; auto. now right.
    + destruct (make_value N fresh strassen_on of_nat show cmp_of Hshow pick Hpick env g (KTr (0, 1)) [a] [t] g' n G I eq_refl Al) as [M|[[] _]]; auto.
      { discriminate. } exists x. split; [|now left]. now rewrite M.
Qed.
Lemma make_mat_value env g tA tB a b g' n ta tb : gok g -> alive_at g a = true -> alive_at g b = true -> make_mat g tA tB a b = (g', n) ->
  gvalue env g a = Ok ta -> gvalue env g b = Ok tb ->
  (tA = true -> exists x, sem (KTr (0, 1)) [ta] = Ok x) -> (tB = true -> exists x, sem (KTr (0, 1)) [tb] = Ok x) ->
  exists xa xb, turned tA ta xa /\ turned tB tb xb /\ gvalue env g' n = sem (KMat tA tB) [xa; xb].
Proof.
  intros G A B E Va Vb Ha Hb. unfold CseModel.make_mat in E. destruct (mat_arg g tA a) as [g1 a'] eqn:E1. destruct (mat_arg g1 tB b) as [g2 b'] eqn:E2.
  destruct (mat_arg_structure N fresh strassen_on of_nat show cmp_of Hshow pick Hpick g tA a g1 a' G A E1) as (G1 & (t1 & T1) & A1).
  assert (B' : alive_at g1 b = true) by (rewrite T1; now apply alive_app).
  destruct (mat_arg_structure N fresh strassen_on of_nat show cmp_of Hshow pick Hpick g1 tB b g2 b' G1 B' E2) as (G2 & (t2 & T2) & A2).
  destruct (mat_arg_value env g tA a g1 a' ta G A E1 Va Ha) as (xa & Xa & Ta).
  destruct (mat_arg_value env g1 tB b g2 b' tb G1 B' E2) as (xb & Xb & Tb); auto. { rewrite T1, gvalue_app; auto. now apply alive_lt. }
  exists xa, xb. split; [auto|split; auto].
  destruct (make_value N fresh strassen_on of_nat show cmp_of Hshow pick Hpick env g2 (KMat tA tB) [a'; b'] [xa; xb] g' n G2 I eq_refl) as [M|[[] _]]; auto.
  - intros x [<-|[<-|[]]]; auto. rewrite T2. now apply alive_app.
  - discriminate.
  - constructor; [rewrite T2, gvalue_app; auto; now apply alive_lt|]. constructor; auto.
Qed.

(* calling twice *)
Lemma pick_some l m : In m l -> pick l <> None.
Proof. intros H. apply Hpick. intros E. rewrite E in H. contradiction. Qed.
Lemma audience_snoc (g : graph) op args a : In a args -> In (length g) (audience (g ++ [mkG true (label N show op) (Some op) args]) a (label N show op)).
Proof.
  intros H. unfold audience. apply filter_In. split; [apply in_seq; rewrite app_length; cbn; lia|]. rewrite snoc_nth. cbn [g_alive g_label g_args].
  rewrite String.eqb_refl. unfold CseModel.mem. replace (existsb (Nat.eqb a) args) with true; auto. symmetry. apply existsb_exists. exists a. split; auto. apply Nat.eqb_refl.
Qed.
Lemma search_after g op args : op <> KConst -> length args = arity op -> is_clip op = false ->
  search (g ++ [mkG true (label N show op) (Some op) args]) op args <> None.
Proof.
  intros D L C. assert (SL : search_label N show op = label N show op) by (destruct op; congruence || reflexivity).
  unfold CseModel.search. rewrite SL.
  assert (KS : (exists ax, op = KSize ax) \/ forall ax, op <> KSize ax) by (destruct op; eauto; right; discriminate). destruct KS as [[ax ->]|KS].
  { cbn [kind_of]. destruct args as [|a [|b l]]; try discriminate. apply (pick_some _ (length g)), filter_In. split; [apply audience_snoc; now left|].
    unfold is_shape_dep, args_of. rewrite snoc_nth. cbn [g_op g_args andb]. unfold same_args. destruct (list_eq_dec Nat.eq_dec [a] [a]); congruence. }
  assert (K : (kind_of op = SUnary /\ arity op = 1) \/ (kind_of op <> SUnary /\ kind_of op <> SShape /\ arity op = 2)).
  { destruct op as [| |u|? ? ?|? ? ?|? ?|o|o l ?|? ?|ax| |? ?|ax|ax|ax|?|? ?| |cap|sz]; try (destruct sz as [sz|]); try destruct o; try (contradiction (KS _ eq_refl)); cbn; auto; right; repeat split; auto; discriminate. }
  destruct K as [[K A]|[K [K' A]]].
  - rewrite K. rewrite A in L. destruct args as [|a [|b l]]; try discriminate. apply (pick_some _ (length g)), audience_snoc. now left.
  - rewrite A in L. destruct args as [|a [|b [|c l]]]; try discriminate.
    assert (AO : args_of (g ++ [mkG true (label N show op) (Some op) [a; b]]) (length g) = [a; b]) by (unfold args_of; now rewrite snoc_nth).
    assert (SA : same_args [a; b] [a; b] = true) by (unfold same_args; destruct (list_eq_dec Nat.eq_dec [a; b] [a; b]); congruence).
    destruct (kind_of op) eqn:Ek; [contradiction| | |contradiction]; apply (pick_some _ (length g)), filter_In; rewrite AO, SA; (split; [apply audience_snoc; now left|reflexivity]).
Qed.
Lemma shortcut_app (g tl : graph) op args : (forall a, In a args -> a < length g) -> shortcut N show (g ++ tl) op args = shortcut N show g op args.
Proof.
  intros H. unfold shortcut. destruct op as [| |u|? ? ?|? ? ?|? ?|o|o l ?|? ?|ax| |? ?|ax|ax|ax|?|? ?| |cap|sz]; try (destruct sz as [sz|]); try destruct u; try reflexivity.
  all: destruct args as [|a [|b l]]; try reflexivity; rewrite nth_error_app1 by (apply H; now left); reflexivity.
Qed.
Lemma build_twice g op args g' n : op <> KConst -> is_clip op = false -> length args = arity op -> build N show pick g op args = (g', n) -> exists m, build N show pick g' op args = (g', m).
Proof.
  intros D C L E. unfold CseModel.build in *. destruct (search g op args) as [m|] eqn:S.
  - injection E as <- <-. rewrite S. eauto.
  - unfold add_node in E. injection E as <- <-. pose proof (search_after g op args D L C) as X.
    match goal with |- exists m, match ?q with _ => _ end = _ => destruct q as [m|] eqn:Q; [eauto|contradiction (X eq_refl)] end.
Qed.
Lemma make_twice g op args g' n : op <> KConst -> length args = arity op -> (forall a, In a args -> a < length g) ->
  make g op args = (g', n) -> exists m, make g' op args = (g', m).
Proof.
  intros D L A E. unfold CseModel.make in E. destruct (shortcut N show g op args) as [c|] eqn:S.
  { injection E as <- <-. unfold CseModel.make. rewrite S. eauto. }
  destruct (is_clip op) eqn:C.
  - destruct op as [| |u|? ? ?|? ? ?|? ?|o|o l ?|? ?|ax| |? ?|ax|ax|ax|?|? ?| |cap|sz]; try (destruct sz as [sz|]); try discriminate. destruct args as [|a [|b l]]; try discriminate.
    destruct (search g (KClipNorm cap) [a]) as [m|] eqn:Se. { injection E as <- <-. unfold CseModel.make. cbn [shortcut]. rewrite Se. eauto. }
    destruct (build N show pick g KNorm [a]) as [g1 m]. unfold add_node in E. injection E as <- <-. unfold CseModel.make. cbn [shortcut].
    assert (X : search (g1 ++ [mkG true (label N show (KClipNorm cap)) (Some (KClipNorm cap)) [m; a]]) (KClipNorm cap) [a] <> None).
    { unfold CseModel.search. cbn [kind_of search_label]. apply (pick_some _ (length g1)), audience_snoc. right. now left. }
    match goal with |- exists m, match ?q with _ => _ end = _ => destruct q as [k|] eqn:Q; [eauto|contradiction (X eq_refl)] end.
  - assert (B : build N show pick g op args = (g', n)) by (destruct op; try discriminate; auto).
    assert (Tl : exists tl, g' = g ++ tl). { unfold CseModel.build, add_node in B. destruct (search g op args); injection B as <- <-; [exists []; now rewrite app_nil_r|eauto]. }
    destruct Tl as [tl ->]. destruct (build_twice g op args (g ++ tl) n D C L B) as [m Hm]. exists m. unfold CseModel.make.
    rewrite shortcut_app, S by auto. destruct op; try discriminate; exact Hm.
Qed.
Lemma const_never g a : gok g -> search g KConst [a] = None.
Proof.
  intros G. destruct (search g KConst [a]) as [m|] eqn:S; [|reflexivity]. exfalso.
  destruct (search_spec N fresh strassen_on of_nat show cmp_of Hshow pick Hpick g KConst [a] m G I eq_refl S) as (nd & op' & H1 & H2 & H3 & H4 & H5).
  unfold CseModel.search in S. cbn [kind_of search_label] in S. apply (proj1 Hpick) in S. apply audience_spec in S. destruct S as (nd' & S1 & S2 & S3 & S4).
  assert (nd' = nd) by congruence. subst nd'. destruct (G m nd H1) as [_ G2]. rewrite H3 in G2. destruct G2 as (L & W & _).
  apply (tokens_not_constant N show cmp_of Hshow op' W). rewrite L in S4.
  apply concat_inj; auto; try discriminate.
  - apply tokens_nonnil with cmp_of; auto.
  - apply tokens_clean with cmp_of; auto.
  - repeat constructor.
Qed.
End Reuse.
