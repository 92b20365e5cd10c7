(** Proofs about graphs built by any history. *)
From Coq Require Import String Ascii Lia.
From Verif Require Import Common ShapeModel ShapeProofs TransformModel MatmulModel ElemSpec ElemModel ElemProofs GradModel CseModel CseSpec CseProofs.
Local Open Scope list_scope.

Section Graph.
Context {T : Type} (N : num T) (fresh : nat -> T) (strassen_on : bool) (of_nat : nat -> T) (show : T -> string).
Context (cmp_of : string -> T -> T -> bool) (Hshow : exact_printing show).
Context (pick : list nat -> option nat) (Hpick : picks pick).
Notation graph := (@graph T).
Notation label := (label N show).
Notation sem := (sem N fresh strassen_on of_nat).
Notation like := (like N fresh strassen_on of_nat).
Notation make := (make N show pick).
Notation build := (build N show pick).
Notation search := (search N show pick).
Notation step := (step N show pick).
Notation run := (run N show pick).
Notation gvalue := (gvalue N fresh strassen_on of_nat).
Notation values := (values N fresh strassen_on of_nat).
Notation node_value := (node_value N fresh strassen_on of_nat).
Notation well_named := (well_named cmp_of).
Notation meaning := (meaning N fresh strassen_on of_nat).

(* ---- values ---- *)
Lemma values_length env g vs : length (values env g vs) = length vs + length g.
Proof. revert vs. induction g as [|nd g IH]; intros vs; cbn [values CseModel.values]; [cbn; lia|]. rewrite IH, app_length. cbn. lia. Qed.
Lemma values_app env g g' vs : values env (g ++ g') vs = values env g' (values env g vs).
Proof. revert vs. induction g as [|nd g IH]; intros vs; cbn; auto. Qed.
Lemma values_prefix env g vs : exists r, values env g vs = vs ++ r.
Proof.
  revert vs. induction g as [|nd g IH]; intros vs; cbn; [exists []; now rewrite app_nil_r|].
  destruct (IH (vs ++ [node_value env vs nd])) as [r E]. eexists. rewrite E, <- app_assoc. reflexivity.
Qed.
Lemma gvalue_app env g g' n : n < length g -> gvalue env (g ++ g') n = gvalue env g n.
Proof.
  intros H. unfold gvalue, CseModel.gvalue. rewrite values_app. destruct (values_prefix env g' (values env g [])) as [r ->].
  rewrite nth_error_app1; auto. rewrite values_length. cbn. lia.
Qed.
Definition collect env g (args : list nat) : res (list (tens T)) :=
  fold_right (fun a r => r <- r ;; t <- gvalue env g a ;; Ok (t :: r)) (Ok []) args.
Lemma gvalue_node env g n nd : nth_error g n = Some nd -> (forall a, In a (g_args nd) -> a < n) ->
  gvalue env g n = match g_op nd with None => Ok (env n) | Some op => ts <- collect env g (g_args nd) ;; sem op ts end.
Proof.
  intros H Ha. destruct (nth_error_split g n H) as (g1 & g2 & -> & L).
  replace (gvalue env (g1 ++ nd :: g2) n) with (node_value env (values env g1 []) nd).
  - unfold node_value, CseModel.node_value. rewrite values_length. cbn [length plus]. rewrite L. destruct (g_op nd); [|reflexivity].
    f_equal. unfold collect. induction (g_args nd) as [|a l IH]; cbn [fold_right]; [reflexivity|].
    rewrite IH by (intros; apply Ha; now right). match goal with |- bind ?q _ = bind ?q _ => destruct q; cbn [bind]; auto end.
    assert (a < length g1) by (rewrite L; apply Ha; now left).
    rewrite gvalue_app by auto. unfold rd, gvalue, CseModel.gvalue. destruct (nth_error (values env g1 []) a) eqn:E; cbn [bind]; auto.
  - unfold gvalue, CseModel.gvalue. rewrite values_app. cbn [values CseModel.values].
    destruct (values_prefix env g2 (values env g1 [] ++ [node_value env (values env g1 []) nd])) as [r E]. rewrite E.
    rewrite <- app_assoc. rewrite nth_error_app2; rewrite values_length; cbn [length plus]; [|lia].
    replace (n - length g1) with 0 by lia. reflexivity.
Qed.
Lemma collect_ok env g args ts : Forall2 (fun a t => gvalue env g a = Ok t) args ts -> collect env g args = Ok ts.
Proof. induction 1 as [|a t args ts E F IH]; [reflexivity|]. unfold collect in *. cbn [fold_right]. rewrite IH. cbn [bind]. now rewrite E. Qed.
Lemma collect_inv env g args ts : collect env g args = Ok ts -> Forall2 (fun a t => gvalue env g a = Ok t) args ts.
Proof.
  revert ts. induction args as [|a args IH]; intros ts; unfold collect in *; cbn [fold_right]; [intros [= <-]; constructor|].
  destruct (fold_right _ _ args) eqn:E; cbn [bind]; try discriminate. destruct (gvalue env g a) eqn:E2; cbn [bind]; try discriminate.
  intros [= <-]. constructor; auto.
Qed.

(* ---- the invariant ---- *)
Definition gok (g : graph) : Prop := forall m nd, nth_error g m = Some nd ->
  (forall a, In a (g_args nd) -> a < m /\ (g_alive nd = true -> alive_at g a = true)) /\
  match g_op nd with
  | None => g_args nd = []
  | Some op => g_label nd = label op /\ well_named op /\
     if is_clip op then exists k a nk, g_args nd = [k; a] /\ nth_error g k = Some nk /\ g_op nk = Some KNorm /\ g_args nk = [a]
     else length (g_args nd) = arity op
  end.
Lemma alive_lt (g : graph) a : alive_at g a = true -> a < length g.
Proof. unfold alive_at. destruct (nth_error g a) eqn:E; [|discriminate]. intros _. apply nth_error_Some. congruence. Qed.
Lemma alive_app (g g' : graph) a : alive_at g a = true -> alive_at (g ++ g') a = true.
Proof. intros H. unfold alive_at. rewrite nth_error_app1 by now apply alive_lt. exact H. Qed.
Lemma gok_nil : gok []. Proof. intros [|m] nd H; discriminate. Qed.
Lemma gok_snoc g nd : gok g -> (forall a, In a (g_args nd) -> alive_at g a = true) ->
  match g_op nd with
  | None => g_args nd = []
  | Some op => g_label nd = label op /\ well_named op /\
     if is_clip op then exists k a nk, g_args nd = [k; a] /\ nth_error g k = Some nk /\ g_op nk = Some KNorm /\ g_args nk = [a]
     else length (g_args nd) = arity op
  end -> gok (g ++ [nd]).
Proof.
  intros G Ha Hop m nd' E.
  assert (X : forall k nk, nth_error g k = Some nk -> nth_error (g ++ [nd]) k = Some nk).
  { intros k nk Hk. rewrite nth_error_app1; auto. apply nth_error_Some. congruence. }
  destruct (Nat.lt_ge_cases m (length g)) as [Hm|Hm].
  - rewrite nth_error_app1 in E by auto. destruct (G m nd' E) as [G1 G2]. split.
    + intros a Hin. destruct (G1 a Hin) as [H1 H2]. split; auto. intros. apply alive_app; auto.
    + destruct (g_op nd') as [op|]; auto. destruct G2 as (L & W & C). split; [|split]; auto.
      destruct (is_clip op); auto. destruct C as (k & a & nk & C1 & C2 & C3). exists k, a, nk. auto.
  - assert (m = length g). { assert (m < length (g ++ [nd])) by (apply nth_error_Some; congruence). rewrite app_length in H. cbn in H. lia. }
    subst m. rewrite nth_error_app2, Nat.sub_diag in E by lia. injection E as <-. split.
    + intros a Hin. split; [now apply alive_lt, Ha|]. intros _. apply alive_app; auto.
    + destruct (g_op nd) as [op|]; auto. destruct Hop as (L & W & C). split; [|split]; auto.
      destruct (is_clip op); auto. destruct C as (k & a & nk & C1 & C2 & C3). exists k, a, nk. auto.
Qed.

(* ---- search ---- *)
Lemma audience_spec (g : graph) a l m : In m (audience g a l) ->
  exists nd, nth_error g m = Some nd /\ g_alive nd = true /\ In a (g_args nd) /\ g_label nd = l.
Proof.
  unfold audience. rewrite filter_In. intros [_ H]. destruct (nth_error g m) as [nd|]; [|discriminate]. exists nd.
  apply andb_prop in H. destruct H as [H H3]. apply andb_prop in H. destruct H as [H1 H2]. apply String.eqb_eq in H3. repeat split; auto.
  unfold mem in H2. apply existsb_exists in H2. destruct H2 as (x & Hx & E). apply Nat.eqb_eq in E. now subst.
Qed.
Lemma tokens_not_constant op : well_named op -> tokens N show op <> ["constant"%string; "immutable"%string].
Proof.
  assert (G : forall x, show x = "constant"%string -> False) by (intros x; apply show_not; auto).
  intros W E. destruct op as [| |u|? ? ?|? ? ?|? ?|o|o l ?|? ?|ax| |? ?|ax|ax|ax|?|? ?| |?|sz]; try (destruct sz as [sz|]); try destruct u; try destruct o; cbn [tokens opt_axis] in E; try discriminate E; try contradiction;
  try (destruct (clip_order N lo hi); discriminate E); try (destruct (order_axes ax); discriminate E); injection E; intros; eauto.
Qed.
(** a node found has a like operation, the arguments that were asked for *)
Lemma search_spec g op args m : gok g -> well_named op -> length args = arity op -> search g op args = Some m ->
  exists nd op', nth_error g m = Some nd /\ g_alive nd = true /\ g_op nd = Some op' /\ like op' op /\
    if is_clip op then exists a, args = [a] /\ In a (g_args nd)
    else g_args nd = args \/ (commutative_op op /\ g_args nd = rev args).
Proof.
  intros G W L E. assert (X : forall a, In m (audience g a (search_label N show op)) ->
     exists nd op', nth_error g m = Some nd /\ g_alive nd = true /\ g_op nd = Some op' /\ like op' op /\ In a (g_args nd) /\ 
       (if is_clip op' then True else length (g_args nd) = arity op')).
  { intros a H. apply audience_spec in H. destruct H as (nd & H1 & H2 & H3 & H4). destruct (G m nd H1) as [_ G2].
    destruct (g_op nd) as [op'|] eqn:Eop; [|rewrite G2 in H3; contradiction]. destruct G2 as (L1 & W1 & C).
    exists nd, op'. split; [|split; [|split; [|split; [|split]]]]; auto.
    - apply (label_like N fresh strassen_on of_nat show cmp_of Hshow); auto. destruct op; try (rewrite <- L1; exact H4).
      exfalso. rewrite L1 in H4. cbn [search_label] in H4. apply (tokens_not_constant op'); auto.
      apply concat_inj; auto; try discriminate.
      + apply tokens_nonnil with cmp_of; auto.
      + apply tokens_clean with cmp_of; auto.
      + repeat constructor.
    - destruct (is_clip op'); auto. }
  unfold search, CseModel.search in E.
  assert (Y : forall l, pick l = Some m -> In m l) by (intros l; apply (proj1 Hpick)).
  destruct (kind_of op) eqn:K.
  - destruct args as [|a [|b args]]; try discriminate. apply Y in E. destruct (X a E) as (nd & op' & H1 & H2 & H3 & H4 & H5 & H6).
    exists nd, op'. do 4 (split; auto). destruct H4 as (_ & _ & A1 & A2 & _). rewrite A2 in H6. destruct (is_clip op); [eauto|].
    left. rewrite A1 in H6. rewrite <- L in H6. destruct (g_args nd) as [|x [|y l]]; try discriminate. destruct H5 as [->|[]]. reflexivity.
  - destruct args as [|a [|b [|c args]]]; try discriminate. apply Y in E. apply filter_In in E. destruct E as [E1 E2].
    destruct (X a E1) as (nd & op' & H1 & H2 & H3 & H4 & H5 & H6). exists nd, op'. do 4 (split; auto).
    destruct op; try discriminate K; cbn [is_clip]; unfold args_of, same_args in E2; rewrite H1 in E2;
      (destruct (list_eq_dec Nat.eq_dec (g_args nd) [a; b]) in E2; [left; auto|discriminate]).
  - destruct args as [|a [|b [|c args]]]; try discriminate. apply Y in E. apply filter_In in E. destruct E as [E1 E2].
    destruct (X a E1) as (nd & op' & H1 & H2 & H3 & H4 & H5 & H6). exists nd, op'. do 4 (split; auto).
    assert (C : commutative_op op /\ is_clip op = false) by (destruct op as [| |u|? ? ?|? ? ?|? ?|o|o l ?|? ?|ax| |? ?|ax|ax|ax|?|? ?| |?|sz]; try (destruct sz as [sz|]); try destruct o; try discriminate K; cbn; auto).
    destruct C as [C ->]. unfold args_of, same_args in E2; rewrite H1 in E2.
    destruct (list_eq_dec Nat.eq_dec (g_args nd) [a; b]) in E2; [left; auto|].
    destruct (list_eq_dec Nat.eq_dec (g_args nd) [b; a]) in E2; [right; auto|discriminate].
  - destruct args as [|a [|b args]]; try discriminate. apply Y in E. apply filter_In in E. destruct E as [E1 E2].
    destruct (X a E1) as (nd & op' & H1 & H2 & H3 & H4 & H5 & H6). exists nd, op'. do 4 (split; auto).
    assert (C : is_clip op = false) by (destruct op; try discriminate K; reflexivity). rewrite C. left. apply andb_prop in E2. destruct E2 as [_ E2]. unfold args_of, same_args in E2. rewrite H1 in E2.
    destruct (list_eq_dec Nat.eq_dec (g_args nd) [a]) in E2; [auto|discriminate].
Qed.

(* ---- building ---- *)
(** [n] in [g'] is a node of the operation on these arguments *)
Definition is_result (g' : graph) (n : nat) (op : cop) (args : list nat) : Prop :=
  alive_at g' n = true /\ exists nd op', nth_error g' n = Some nd /\ g_op nd = Some op' /\ like op' op /\
    if is_clip op then exists a, args = [a] /\ In a (g_args nd)
    else g_args nd = args \/ (commutative_op op /\ g_args nd = rev args).
Lemma search_result g op args m : gok g -> well_named op -> length args = arity op -> search g op args = Some m -> is_result g m op args.
Proof.
  intros G W L E. destruct (search_spec g op args m G W L E) as (nd & op' & H1 & H2 & H3 & H4 & H5). split; [unfold alive_at; now rewrite H1|].
  exists nd, op'. auto.
Qed.
Lemma alive_snoc (g : graph) nd : g_alive nd = true -> alive_at (g ++ [nd]) (length g) = true.
Proof. intros H. unfold alive_at. now rewrite nth_error_app2, Nat.sub_diag by lia. Qed.
Lemma snoc_nth (g : graph) nd : nth_error (g ++ [nd]) (length g) = Some nd.
Proof. now rewrite nth_error_app2, Nat.sub_diag by lia. Qed.
Lemma build_spec g op args g' n : gok g -> well_named op -> is_clip op = false -> length args = arity op -> (forall a, In a args -> alive_at g a = true) ->
  build g op args = (g', n) -> gok g' /\ (exists tl, g' = g ++ tl) /\ is_result g' n op args.
Proof.
  intros G W C L A E. unfold build, CseModel.build in E. destruct (search g op args) as [m|] eqn:S.
  - injection E as <- <-. split; [auto|split]; [exists []; now rewrite app_nil_r|]. now apply search_result.
  - unfold add_node in E. injection E as <- <-. split; [|split]; [|eauto|].
    + apply gok_snoc; auto. cbn. rewrite C. auto.
    + split; [now apply alive_snoc|]. eexists _, op. rewrite snoc_nth. split; [reflexivity|]. split; [reflexivity|].
      split; [apply like_refl|]. rewrite C. now left.
Qed.
Lemma like_norm op : like op KNorm -> op = KNorm.
Proof. intros (_ & _ & _ & _ & H). destruct op; try discriminate. reflexivity. Qed.
Definition clip_result (g' : graph) n cap a : Prop :=
  alive_at g' n = true /\ exists nd op' k nk, nth_error g' n = Some nd /\ g_op nd = Some op' /\ like op' (KClipNorm cap) /\
    g_args nd = [k; a] /\ nth_error g' k = Some nk /\ g_op nk = Some KNorm /\ g_args nk = [a].
Lemma clip_build g cap a g' n : gok g -> alive_at g a = true -> search g (KClipNorm cap) [a] = None ->
  make g (KClipNorm cap) [a] = (g', n) -> gok g' /\ (exists tl, g' = g ++ tl) /\ clip_result g' n cap a.
Proof.
  intros G A S E. unfold make, CseModel.make in E. cbn [shortcut] in E. rewrite S in E. destruct (build g KNorm [a]) as [g1 m] eqn:B.
  unfold add_node in E. injection E as <- <-.
  destruct (build_spec g KNorm [a] g1 m) as (G1 & (tl & T1) & (A1 & nd & op' & R1 & R2 & R3 & R4)); cbn; auto. { intros x [<-|[]]. auto. }
  apply like_norm in R3. subst op'. cbn [is_clip] in R4. destruct R4 as [R4|[[] _]].
  assert (Aa : alive_at g1 a = true) by (rewrite T1; now apply alive_app).
  split; [|split].
  - apply gok_snoc; auto; cbn [g_args]. { intros x [<-|[<-|[]]]; auto. }
    cbn [g_op g_label is_clip]. split; [reflexivity|]. split; [exact I|]. exists m, a, nd. auto.
  - rewrite T1, <- app_assoc. eauto.
  - split; [now apply alive_snoc|]. eexists _, (KClipNorm cap), m, nd. rewrite snoc_nth. split; [reflexivity|]. split; [reflexivity|].
    split; [apply like_refl|]. split; [reflexivity|]. split; [|auto]. rewrite nth_error_app1; auto. apply nth_error_Some. congruence.
Qed.
Lemma shortcut_spec g op args c : gok g -> well_named op -> shortcut N show g op args = Some c ->
  exists a nd op', args = [a] /\ nth_error g a = Some nd /\ g_op nd = Some op' /\ like op' op /\ g_args nd = [c] /\ is_clip op = false /\ arity op = 1 /\ (op = KUn UNeg \/ exists ax, op = KTr ax).
Proof.
  intros G W E.
  assert (D : op = KUn UNeg \/ exists ax, op = KTr ax) by (destruct op as [| |u|? ? ?|? ? ?|? ?|o|o l ?|? ?|ax| |? ?|ax|ax|ax|?|? ?| |?|sz]; try (destruct sz as [sz|]); try destruct u; try discriminate E; eauto).
  assert (E' : match args with [a] => match nth_error g a with Some nd => match g_op nd, g_args nd with Some _, [c] => if (g_label nd =? label op)%string then Some c else None | _, _ => None end | None => None end | _ => None end = Some c)
   by (destruct D as [->|[ax ->]]; exact E).
  clear E. destruct args as [|a [|b args]]; try discriminate. destruct (nth_error g a) as [nd|] eqn:Ha; [|discriminate].
  destruct (g_op nd) as [op'|] eqn:Eop; [|discriminate]. destruct (g_args nd) as [|x [|y l]] eqn:Ea; try discriminate.
  destruct (String.eqb_spec (g_label nd) (label op)) as [El|]; [|discriminate]. injection E' as <-.
  exists a, nd, op'. pose proof (G a nd Ha) as [_ G2]. rewrite Eop in G2. destruct G2 as (L & W' & _).
  repeat (split; [now auto|]). split; [apply (label_like N fresh strassen_on of_nat show cmp_of Hshow); auto; congruence|].
  repeat (split; [now auto|]). destruct D as [->|[ax ->]]; cbn; eauto.
Qed.

Lemma make_structure g op args g' n : gok g -> well_named op -> length args = arity op -> (forall a, In a args -> alive_at g a = true) ->
  make g op args = (g', n) -> gok g' /\ (exists tl, g' = g ++ tl) /\ alive_at g' n = true.
Proof.
  intros G W L A E. pose proof E as E0. unfold make, CseModel.make in E. destruct (shortcut N show g op args) as [c|] eqn:S.
  - injection E as <- <-. split; [auto|split]; [exists []; now rewrite app_nil_r|].
    destruct (shortcut_spec g op args c G W S) as (a & nd & op' & -> & Ha & Hop & _ & Hc & _). destruct (G a nd Ha) as [G1 _].
    apply (G1 c); [rewrite Hc; now left|]. specialize (A a (or_introl eq_refl)). unfold alive_at in A. now rewrite Ha in A.
  - assert (X : is_clip op = false -> build g op args = (g', n)). { destruct op; try discriminate; auto. }
    destruct (is_clip op) eqn:C.
    + destruct op as [| |u|? ? ?|? ? ?|? ?|o|o l ?|? ?|ax| |? ?|ax|ax|ax|?|? ?| |cap|sz]; try (destruct sz as [sz|]); try discriminate. destruct args as [|a [|b l]]; try discriminate.
      destruct (search g (KClipNorm cap) [a]) as [m|] eqn:Se.
      * injection E as <- <-. split; [auto|split]; [exists []; now rewrite app_nil_r|]. now apply (search_result g (KClipNorm cap) [a]).
      * destruct (clip_build g cap a g' n) as (H1 & H2 & H3 & _); auto. apply A. now left.
    + specialize (X eq_refl). destruct (build_spec g op args g' n) as (H1 & H2 & H3 & _); auto.
Qed.

Lemma result_value env g n op args ts nd op' : gok g -> nth_error g n = Some nd -> g_op nd = Some op' -> like op' op -> g_args nd = args ->
  Forall2 (fun a t => gvalue env g a = Ok t) args ts -> gvalue env g n = sem op ts.
Proof.
  intros G H1 H2 (H3 & _) H4 F. destruct (G n nd H1) as [G1 _]. rewrite (gvalue_node env g n nd H1) by (intros a Ha; now apply G1).
  rewrite H2, H4, (collect_ok env g args ts F). cbn [bind]. apply H3.
Qed.
Lemma Forall2_rev' {A B} (P : A -> B -> Prop) l l' : Forall2 P l l' -> Forall2 P (rev l) (rev l').
Proof. induction 1; cbn; [constructor|]. apply Forall2_app; auto. Qed.
Lemma alive_value_app env (g tl : graph) args ts : (forall a, In a args -> alive_at g a = true) ->
  Forall2 (fun a t => gvalue env g a = Ok t) args ts -> Forall2 (fun a t => gvalue env (g ++ tl) a = Ok t) args ts.
Proof.
  intros A F. induction F as [|a t args ts E F IH]; constructor.
  - rewrite gvalue_app; auto. apply alive_lt, A. now left.
  - apply IH. intros x Hx. apply A. now right.
Qed.
Lemma no_norm_in g n nd k a b : gok g -> nth_error g n = Some nd -> g_args nd = [k; a] -> In b [k; a] -> ~ norm_node g b -> norm_node g k -> b = a.
Proof. intros G H1 H2 [->|[->|[]]] H3 H4; [contradiction|reflexivity]. Qed.

Lemma make_value env g op args ts g' n : gok g -> well_named op -> length args = arity op -> (forall a, In a args -> alive_at g a = true) ->
  (forall cap, op = KClipNorm cap -> ~ norm_node g (hd 0 args)) ->
  shortcut N show g op args = None -> make g op args = (g', n) -> Forall2 (fun a t => gvalue env g a = Ok t) args ts ->
  gvalue env g' n = meaning op ts \/ (commutative_op op /\ gvalue env g' n = meaning op (rev ts)).
Proof.
  intros G W L A NN S E F. pose proof (make_structure g op args g' n G W L A E) as (G' & (tl & ET) & _).
  pose proof (alive_value_app env g tl args ts A F) as F'. rewrite <- ET in F'.
  pose proof E as E0. unfold make, CseModel.make in E. rewrite S in E. destruct (is_clip op) eqn:C.
  - destruct op as [| |u|? ? ?|? ? ?|? ?|o|o l ?|? ?|ax| |? ?|ax|ax|ax|?|? ?| |cap|sz]; try (destruct sz as [sz|]); try discriminate. destruct args as [|a [|b l]]; try discriminate.
    assert (R : clip_result g' n cap a).
    { destruct (search g (KClipNorm cap) [a]) as [m|] eqn:Se.
      - injection E as <- <-. destruct (search_result g (KClipNorm cap) [a] m G W L Se) as (H1 & nd & op' & H2 & H3 & H4 & (a' & [= <-] & H5)).
        split; [auto|]. destruct (G m nd H2) as [_ G2]. rewrite H3 in G2. destruct G2 as (_ & _ & G2).
        destruct H4 as (H41 & H42 & H43 & H44 & H45). rewrite H44 in G2. cbn [is_clip] in G2. destruct G2 as (k & a' & nk & G3 & G4 & G5 & G6).
        assert (a = a'). { apply (no_norm_in g m nd k a' a); auto; [rewrite G3 in H5; auto| |exists nk; auto]. apply (NN cap eq_refl). }
        subst a'. exists nd, op', k, nk. repeat (split; auto).
      - apply (clip_build g cap a); auto. apply A. now left. }
    destruct R as (_ & nd & op' & k & nk & H1 & H2 & H3 & H4 & H5 & H6 & H7). left.
    inversion F' as [|? t ? l' Ea F1]; subst. inversion F1; subst. unfold meaning, CseSpec.meaning.
    assert (V : gvalue env (g ++ tl) k = sem KNorm [t]). { apply (result_value env (g ++ tl) k KNorm [a] [t] nk KNorm); auto using like_refl. }
    destruct (G' n nd H1) as [G1 _]. rewrite (gvalue_node env (g ++ tl) n nd H1) by (intros x Hx; now apply G1). rewrite H2, H4.
    unfold collect. cbn [fold_right]. rewrite Ea. cbn [bind]. rewrite V. destruct (sem KNorm [t]) as [nrm| | |]; cbn [bind]; auto. apply H3.
  - assert (B : build g op args = (g', n)) by (destruct op; try discriminate; auto).
    assert (M : forall l, meaning op l = sem op l) by (destruct op; try discriminate; auto).
    destruct (build_spec g op args g' n G W C L A B) as (_ & _ & (_ & nd & op' & H1 & H2 & H3 & H4)). rewrite C in H4. destruct H4 as [H4|[Cm H4]].
    + left. rewrite M. apply (result_value env g' n op args ts nd op'); auto.
    + right. split; auto. rewrite M. apply (result_value env g' n op (rev args) (rev ts) nd op'); auto. now apply Forall2_rev'.
Qed.
Lemma shortcut_value env g op args ts c : gok g -> well_named op -> shortcut N show g op args = Some c -> Forall2 (fun a t => gvalue env g a = Ok t) args ts ->
  exists t tc, ts = [t] /\ gvalue env g c = Ok tc /\ sem op [tc] = Ok t.
Proof.
  intros G W S F. destruct (shortcut_spec g op args c G W S) as (a & nd & op' & -> & Ha & Hop & Hl & Hc & _).
  inversion F as [|? t ? l' Ea F1]; subst. inversion F1; subst. destruct (G a nd Ha) as [G1 _].
  rewrite (gvalue_node env g a nd Ha), Hop, Hc in Ea by (intros x Hx; now apply G1).
  destruct (collect env g [c]) as [tcs| | |] eqn:Ec; cbn [bind] in Ea; try discriminate. apply collect_inv in Ec.
  inversion Ec as [|? tc ? l2 Ecc F2]; subst. inversion F2; subst. exists t, tc. split; [auto|split; auto]. destruct Hl as (Hl & _). now rewrite <- Hl.
Qed.

(* ---- matmul ---- *)
Notation mat_arg := (mat_arg N show pick).
Notation make_mat := (make_mat N show pick).
Lemma mat_arg_structure g t a g' n : gok g -> alive_at g a = true -> mat_arg g t a = (g', n) -> gok g' /\ (exists tl, g' = g ++ tl) /\ alive_at g' n = true.
Proof.
  intros G A E. unfold mat_arg, CseModel.mat_arg in E. destruct t; [|injection E as <- <-; split; [auto|split; auto]; exists []; now rewrite app_nil_r].
  change (pick (audience g a "transpose_0_1")) with (search g (KTr (0, 1)) [a]) in E. destruct (search g (KTr (0, 1)) [a]) as [m|] eqn:S.
  - injection E as <- <-. split; [auto|split]; [exists []; now rewrite app_nil_r|]. apply (search_result g (KTr (0, 1)) [a]); auto. exact I.
  - apply (make_structure g (KTr (0, 1)) [a]); auto; [exact I|]. intros x [<-|[]]. auto.
Qed.
Lemma make_mat_structure g tA tB a b g' n : gok g -> alive_at g a = true -> alive_at g b = true -> make_mat g tA tB a b = (g', n) ->
  gok g' /\ (exists tl, g' = g ++ tl) /\ alive_at g' n = true.
Proof.
  intros G A B E. unfold make_mat, CseModel.make_mat in E. destruct (mat_arg g tA a) as [g1 a'] eqn:E1. destruct (mat_arg g1 tB b) as [g2 b'] eqn:E2.
  destruct (mat_arg_structure g tA a g1 a' G A E1) as (G1 & (t1 & T1) & A1).
  destruct (mat_arg_structure g1 tB b g2 b' G1) as (G2 & (t2 & T2) & A2); auto. { rewrite T1. now apply alive_app. }
  destruct (make_structure g2 (KMat tA tB) [a'; b'] g' n G2 I eq_refl) as (G3 & (t3 & T3) & A3); auto.
  { intros x [<-|[<-|[]]]; auto. rewrite T2. now apply alive_app. }
  split; auto. split; auto. exists (t1 ++ t2 ++ t3). rewrite T3, T2, T1, <- !app_assoc. reflexivity.
Qed.

(* ---- reduce_mean ---- *)
Notation make_mean := (make_mean N show pick).
Lemma make_mean_structure g axis a g' n : gok g -> alive_at g a = true -> make_mean g axis a = (g', n) ->
  gok g' /\ (exists tl, g' = g ++ tl) /\ alive_at g' n = true.
Proof.
  intros G A E. unfold make_mean, CseModel.make_mean in E. destruct (make g (KSize axis) [a]) as [g1 d] eqn:E1. destruct (make g1 (KSum axis) [a]) as [g2 s] eqn:E2.
  destruct (make_structure g (KSize axis) [a] g1 d G I eq_refl) as (G1 & (t1 & T1) & A1); auto. { intros x [<-|[]]; auto. }
  destruct (make_structure g1 (KSum axis) [a] g2 s G1 I eq_refl) as (G2 & (t2 & T2) & A2); auto. { intros x [<-|[]]. rewrite T1. now apply alive_app. }
  destruct (make_structure g2 (KBin BDiv) [s; d] g' n G2 I eq_refl) as (G3 & (t3 & T3) & A3); auto.
  { intros x [<-|[<-|[]]]; auto. rewrite T2. now apply alive_app. }
  split; auto. split; auto. exists (t1 ++ t2 ++ t3). rewrite T3, T2, T1, <- !app_assoc. reflexivity.
Qed.
(** the node divides the sum by the size *)
Lemma make_mean_value env g axis a g' n t : gok g -> alive_at g a = true -> make_mean g axis a = (g', n) -> gvalue env g a = Ok t ->
  gvalue env g' n = (s <- sem (KSum axis) [t] ;; d <- sem (KSize axis) [t] ;; sem (KBin BDiv) [s; d]) \/
  (forall s, sem (KSum axis) [t] <> Ok s) \/ (forall d, sem (KSize axis) [t] <> Ok d).
Proof.
  intros G A E V. unfold make_mean, CseModel.make_mean in E. destruct (make g (KSize axis) [a]) as [g1 d] eqn:E1. destruct (make g1 (KSum axis) [a]) as [g2 s] eqn:E2.
  destruct (make_structure g (KSize axis) [a] g1 d G I eq_refl) as (G1 & (t1 & T1) & A1); auto. { intros x [<-|[]]; auto. }
  assert (A' : alive_at g1 a = true) by (rewrite T1; now apply alive_app).
  destruct (make_structure g1 (KSum axis) [a] g2 s G1 I eq_refl) as (G2 & (t2 & T2) & A2); auto. { intros x [<-|[]]; auto. }
  assert (V1 : gvalue env g1 a = Ok t) by (rewrite T1, gvalue_app; auto using alive_lt).
  assert (Vd : gvalue env g1 d = sem (KSize axis) [t]).
  { destruct (make_value env g (KSize axis) [a] [t] g1 d G I eq_refl) as [X|[[] _]]; auto; try discriminate. intros x [<-|[]]; auto. }
  assert (Vs : gvalue env g2 s = sem (KSum axis) [t]).
  { destruct (make_value env g1 (KSum axis) [a] [t] g2 s G1 I eq_refl) as [X|[[] _]]; auto; try discriminate. intros x [<-|[]]; auto. }
  assert (Vd2 : gvalue env g2 d = sem (KSize axis) [t]) by (rewrite T2, gvalue_app; auto using alive_lt).
  destruct (sem (KSum axis) [t]) as [ts| | |] eqn:Es; try (right; left; intros; discriminate). destruct (sem (KSize axis) [t]) as [td| | |] eqn:Ed; try (right; right; intros; discriminate).
  left. cbn [bind]. destruct (make_value env g2 (KBin BDiv) [s; d] [ts; td] g' n G2 I eq_refl) as [X|[[] _]]; auto; try discriminate.
  intros x [<-|[<-|[]]]; auto. rewrite T2. now apply alive_app.
Qed.

(* ---- histories ---- *)
Lemma kill_nth (g : graph) n nd m nd' : nth_error g n = Some nd ->
  nth_error (set_nth n (mkG false (g_label nd) (g_op nd) (g_args nd)) g) m = Some nd' ->
  exists nd0, nth_error g m = Some nd0 /\ g_op nd' = g_op nd0 /\ g_args nd' = g_args nd0 /\ g_label nd' = g_label nd0 /\
    (m = n /\ g_alive nd' = false \/ m <> n /\ nd' = nd0).
Proof.
  intros H E. assert (n < length g) by (apply nth_error_Some; congruence). destruct (Nat.eq_dec m n) as [->|D].
  - rewrite nth_error_set_nth_eq in E by auto. injection E as <-. exists nd. cbn. auto 10.
  - rewrite nth_error_set_nth_neq in E by auto. exists nd'. auto 10.
Qed.
Lemma step_ok g h g' : gok g -> proper cmp_of h -> step g h = Ok g' -> gok g'.
Proof.
  intros G P E. destruct h as [l|op args|tA tB a b|axis a|n|n l]; cbn [step CseModel.step] in E; [| | | | |contradiction P].
  - injection E as <-. apply gok_snoc; cbn; auto.
  - destruct (_ && _) eqn:C in E; [|discriminate]. injection E as <-. apply andb_prop in C. destruct C as [C1 C2].
    apply Nat.eqb_eq in C1. rewrite forallb_forall in C2. destruct (make g op args) as [g1 n] eqn:M. now apply (make_structure g op args g1 n).
  - destruct (_ && _) eqn:C in E; [|discriminate]. injection E as <-. apply andb_prop in C. destruct C as [C1 C2].
    destruct (make_mat g tA tB a b) as [g1 n] eqn:M. now apply (make_mat_structure g tA tB a b g1 n).
  - destruct (alive_at g a) eqn:C; [|discriminate]. injection E as <-.
    destruct (make_mean g axis a) as [g1 n] eqn:M. now apply (make_mean_structure g axis a g1 n).
  - unfold rd in E. destruct (nth_error g n) as [nd|] eqn:Hn; cbn [bind] in E; [|discriminate]. destruct (_ && _) eqn:C in E; [|discriminate].
    injection E as <-. apply andb_prop in C. destruct C as [C1 C2]. rewrite forallb_forall in C2.
    intros m nd' Hm. destruct (kill_nth g n nd m nd' Hn Hm) as (nd0 & H0 & H1 & H2 & H3 & H4). destruct (G m nd0 H0) as [G1 G2]. split.
    + intros a Ha. rewrite H2 in Ha. destruct (G1 a Ha) as [Hlt Hal]. split; auto. intros Al.
      destruct H4 as [[-> H4]|[Dm ->]]; [congruence|]. specialize (Hal Al).
      assert (Dn : a <> n). { intros ->. specialize (C2 nd0 (nth_error_In _ _ H0)). rewrite Al in C2. cbn in C2.
        assert (X : mem n (g_args nd0) = true) by (unfold mem; apply existsb_exists; exists n; split; auto; apply Nat.eqb_refl). rewrite X in C2. discriminate. }
      unfold alive_at. rewrite nth_error_set_nth_neq by auto. exact Hal.
    + rewrite H1, H2, H3. destruct (g_op nd0) as [op|]; auto. destruct G2 as (L & W & Cl). split; [auto|split; auto].
      destruct (is_clip op); auto. destruct Cl as (k & a & nk & C3 & C4 & C5 & C6).
      assert (X : exists nk', nth_error (set_nth n (mkG false (g_label nd) (g_op nd) (g_args nd)) g) k = Some nk' /\ g_op nk' = g_op nk /\ g_args nk' = g_args nk).
      { destruct (Nat.eq_dec k n) as [->|Dk].
        - rewrite nth_error_set_nth_eq by (apply nth_error_Some; congruence). eexists. split; [reflexivity|]. cbn. split; congruence.
        - rewrite nth_error_set_nth_neq by auto. eauto. }
      destruct X as (nk' & X1 & X2 & X3). exists k, a, nk'. rewrite X2, X3. auto.
Qed.
Lemma run_ok hs g g' : gok g -> Forall (proper cmp_of) hs -> run g hs = Ok g' -> gok g'.
Proof.
  revert g. induction hs as [|h hs IH]; intros g G F E; cbn [run CseModel.run] in E; [injection E as <-; auto|].
  inversion F; subst. destruct (step g h) as [g1| | |] eqn:S; cbn [bind] in E; try discriminate. apply (IH g1); auto. apply (step_ok g h g1); auto.
Qed.
End Graph.
