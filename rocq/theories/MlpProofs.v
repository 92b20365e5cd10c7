(** Proofs about layers and networks. *)
From Coq Require Import String Ring Lia.
From Verif Require Import Common ShapeModel ShapeSpec ShapeProofs TransformSpec TransformModel TransformProofs MatmulSpec MatmulModel ElemSpec ElemModel ElemProofs NumSpec GradModel MatrixSpec MatrixProofs MlpSpec MlpModel.
Local Open Scope list_scope.

(** a node as fc_layer returns it: never a constant *)
Definition layer_node {T} (e : @expr T) : Prop := match e with EAxB _ _ _ | EBin BAdd _ _ => True | _ => False end.

Lemma F2_len {A B} (P : A -> B -> Prop) l l' : Forall2 P l l' -> length l = length l'.
Proof. induction 1; cbn; auto. Qed.
Lemma F2_nth {A B} (P : A -> B -> Prop) l l' i a b : Forall2 P l l' -> nth_error l i = Some a -> nth_error l' i = Some b -> P a b.
Proof. intros H. revert i. induction H as [|x y la lb Hab _ IH]; intros [|i]; cbn; try discriminate; [intros [= <-] [= <-]; exact Hab|apply IH]. Qed.

Section P.
Context {T : Type} (N : num T) (of_nat : nat -> T) (same : @expr T -> @expr T -> bool) (fresh : nat -> T) (use : bool).
Notation zero := (n_zero N).
Notation add := (n_add N).
Notation mul := (n_mul N).
Context (Ring : use = true -> exists opp, ring_theory (n_zero N) (n_one N) (n_add N) (n_mul N) (n_sub N) opp eq).

Lemma deref_app (st ext : store) p (v : @var T) : deref st p = Ok v -> deref (st ++ ext) p = Ok v.
Proof.
  unfold deref. destruct (nth_error st p) as [o|] eqn:E; [|discriminate]. rewrite nth_error_app1, E; [auto|]. apply nth_error_Some. congruence.
Qed.
Lemma deref_last (st : store) (v : @var T) : deref (st ++ [Some v]) (length st) = Ok v.
Proof. unfold deref. rewrite nth_error_app2, Nat.sub_diag by lia. reflexivity. Qed.

Lemma fc_vars_ok scope c ns i (st : store) l st' : fc_vars_from N of_nat scope c ns i st = (l, st') ->
  (exists ext, st' = st ++ ext) /\ length l = length ns /\
  forall j n, nth_error ns j = Some n -> exists w b vw vb, nth_error l j = Some (w, b) /\ deref st' w = Ok vw /\ v_shape vw = [c; n] /\ deref st' b = Ok vb /\ v_shape vb = [c] /\ length st <= w /\ length st <= b.
Proof.
  revert i st l st'. induction ns as [|n ns IH]; intros i st l st'; cbn [fc_vars_from].
  - intros [= <- <-]. split; [exists []; now rewrite app_nil_r|]. split; [reflexivity|]. intros [|j] n; discriminate.
  - cbn [alloc]. set (vw := mkVar _ [c; n] _ _). set (vb := mkVar _ [c] _ _).
    destruct (fc_vars_from N of_nat scope c ns (S i) ((st ++ [Some vw]) ++ [Some vb])) as [l' st2] eqn:E. intros [= <- <-].
    destruct (IH _ _ _ _ E) as ([ext Ex] & L & H). split; [exists ([Some vw] ++ [Some vb] ++ ext); now rewrite Ex, <- !app_assoc|].
    split; [cbn; lia|]. intros [|j] m; cbn [nth_error].
    + intros [= <-]. exists (length st), (length (st ++ [Some vw])), vw, vb. split; [reflexivity|].
      rewrite Ex. split; [apply deref_app, deref_app, deref_last|]. split; [reflexivity|].
      split; [apply deref_app, deref_last|]. split; [reflexivity|]. rewrite app_length. lia.
    + intros Hm. destruct (H j m Hm) as (w & b & v1 & v2 & A & B & C & D & F & G1 & G2). exists w, b, v1, v2.
      rewrite !app_length in *. cbn [length] in *. repeat split; auto; lia.
Qed.

Lemma fc_variables_nth (wb : list (nat * nat)) j w b : nth_error wb j = Some (w, b) ->
  nth (2 * j) (flat_map (fun p => [fst p; snd p]) wb) 0 = w /\ nth (2 * j + 1) (flat_map (fun p => [fst p; snd p]) wb) 0 = b /\
  In w (flat_map (fun p => [fst p; snd p]) wb) /\ In b (flat_map (fun p => [fst p; snd p]) wb).
Proof.
  revert j. induction wb as [|[w0 b0] wb IH]; intros [|j]; cbn [nth_error]; try discriminate.
  - intros [= <- <-]. cbn. repeat split; auto.
  - intros H. destruct (IH j H) as (A & B & C & D). cbn [flat_map app fst snd].
    replace (2 * S j) with (S (S (2 * j))) by lia. replace (S (S (2 * j)) + 1) with (S (S (2 * j + 1))) by lia. cbn [nth].
    repeat split; auto; cbn; auto.
Qed.

(** ---- evaluation ---- *)
Context (env : nat -> tens T).
Notation ev := (eval N fresh use env).

Lemma layer_none e : layer_node e -> cview_of N e = CNone.
Proof. destruct e; cbn; try contradiction; auto. Qed.

Lemma fc_one_ok inputs wb i c n r e t w b : nth_error wb i = Some (w, b) -> nth_error inputs i = Some e ->
  ev e = Ok t -> matrix n r t -> matrix c n (env w) -> vector c (env b) ->
  exists e', fc_one N inputs wb i = Ok e' /\ layer_node e' /\ exists t', ev e' = Ok t' /\ fst t' = [c; r] /\ matrix c r t' /\
    forall x y, x < c -> y < r -> entry zero c t' x y = dense zero add mul n (entry zero c (env w)) (fun x => nth x (snd (env b)) zero) (entry zero n t) x y.
Proof.
  intros Hw Hi He Ht Mw Mb. unfold fc_one, rd. rewrite Hw, Hi. unfold mk_mat. cbn [bind fst snd]. unfold mk_axb. cbn [cview_of].
  eexists. split; [reflexivity|]. split; [exact I|]. cbn [eval]. rewrite He. cbn [bind].
  destruct (mat_mul N fresh use Ring c r n t (env w) Ht Mw) as (u & E1 & E2 & E3 & E4). rewrite E1. cbn [bind].
  destruct (mat_bias N fresh c r add u (env b) E3 Mb) as (v & F1 & F2 & F3 & F4). exists v. split; [exact F1|]. split; [congruence|]. split; [exact F3|].
  intros x y Hx Hy. rewrite F4, E4 by auto. reflexivity.
Qed.

Lemma fold1_snoc {A} (f : A -> A -> A) d l x : l <> [] -> fold1 f d (l ++ [x]) = f (fold1 f d l) x.
Proof. destruct l as [|a l]; [congruence|]. intros _. cbn. now rewrite fold_left_app. Qed.

Lemma fc_call_ok (l : fc_layer) inputs ts ns c r : 0 < r -> ns <> [] ->
  length (fc_wb l) = length ns ->
  Forall2 (fun e t => ev e = Ok t) inputs ts -> Forall2 (fun n t => matrix n r t) ns ts ->
  (forall j n, nth_error ns j = Some n -> exists w b, nth_error (fc_wb l) j = Some (w, b) /\ matrix c n (env w) /\ vector c (env b)) ->
  exists e t, fc_call N same l inputs = Ok e /\ layer_node e /\ ev e = Ok t /\ matrix c r t /\ (length ns = 1 -> fst t = [c; r]) /\
    forall x y, x < c -> y < r -> entry zero c t x y =
      fold1 add zero (map (fun i => dense zero add mul (nth i ns 0) (entry zero c (env (nth (2 * i) (fc_variables l) 0)))
        (fun x => nth x (snd (env (nth (2 * i + 1) (fc_variables l) 0))) zero) (entry zero (nth i ns 0) (nth i ts ([], []))) x y) (seq 0 (length ns))).
Proof.
  intros Hr Hn Lw He Ht Hv. set (D := fun x y i => dense zero add mul (nth i ns 0) (entry zero c (env (nth (2 * i) (fc_variables l) 0)))
        (fun x => nth x (snd (env (nth (2 * i + 1) (fc_variables l) 0))) zero) (entry zero (nth i ns 0) (nth i ts ([], []))) x y).
  assert (Step : forall i, i < length ns -> exists e', fc_one N inputs (fc_wb l) i = Ok e' /\ layer_node e' /\ exists t', ev e' = Ok t' /\ fst t' = [c; r] /\ matrix c r t' /\
    forall x y, x < c -> y < r -> entry zero c t' x y = D x y i).
  { intros i Hi. destruct (nth_error ns i) as [n|] eqn:En; [|apply nth_error_None in En; lia].
    destruct (Hv i n En) as (w & b & W1 & W2 & W3).
    assert (Lt : length ts = length ns) by (symmetry; eapply F2_len; eauto).
    destruct (nth_error ts i) as [t|] eqn:Et; [|apply nth_error_None in Et; lia].
    assert (Li : length inputs = length ts) by (eapply F2_len; eauto).
    destruct (nth_error inputs i) as [e|] eqn:Ee; [|apply nth_error_None in Ee; lia].
    assert (He' : ev e = Ok t).
    { exact (F2_nth _ _ _ i e t He Ee Et). }
    assert (Ht' : matrix n r t).
    { exact (F2_nth _ _ _ i n t Ht En Et). }
    destruct (fc_one_ok inputs (fc_wb l) i c n r e t w b W1 Ee He' Ht' W2 W3) as (e' & F1 & F2 & t' & F3 & F4 & F5 & F6).
    exists e'. split; [exact F1|]. split; [exact F2|]. exists t'. split; [exact F3|]. split; [exact F4|]. split; [exact F5|].
    intros x y Hx Hy. rewrite F6 by auto. unfold D. destruct (fc_variables_nth _ _ _ _ W1) as (V1 & V2 & _). unfold fc_variables. rewrite V1, V2.
    rewrite (nth_error_nth _ _ 0 En). erewrite (nth_error_nth ts) by exact Et. reflexivity. }
  assert (Ln : 0 < length ns) by (destruct ns; [congruence|cbn; lia]).
  unfold fc_call. destruct (Step 0 Ln) as (e0 & A1 & A2 & t0 & A3 & A4 & A5 & A6). rewrite A1. cbn [bind].
  destruct (for_inv (fun k e => layer_node e /\ exists t, ev e = Ok t /\ matrix c r t /\ (k = 0 -> fst t = [c; r]) /\
      forall x y, x < c -> y < r -> entry zero c t x y = fold1 add zero (map (D x y) (seq 0 (S k))))
    (fun i r0 => x <- fc_one N inputs (fc_wb l) (S i) ;; mk_binary N same BAdd r0 x) (length (fc_wb l) - 1) e0) as (e & E1 & E2 & t & E3 & E4 & E5 & E6).
  - split; [exact A2|]. exists t0. split; [exact A3|]. split; [exact A5|]. split; [auto|]. intros x y Hx Hy. cbn. now apply A6.
  - intros k e Hk (B1 & t & B2 & B3 & _ & B4). destruct (Step (S k)) as (e1 & C1 & C2 & t1 & C3 & C4 & C5 & C6); [lia|]. rewrite C1. cbn [bind].
    unfold mk_binary. rewrite (layer_none _ B1), (layer_none _ C2). eexists. split; [reflexivity|]. split; [exact I|].
    cbn [eval]. rewrite B2, C3. cbn [bind].
    destruct (mat_bin N fresh c r (bop_lambda N BAdd) t t1 B3 C5) as (u & U1 & U2 & U3). exists u. split; [exact U1|]. split; [exact U2|]. split; [discriminate|].
    intros x y Hx Hy. rewrite U3, B4, C6 by auto. rewrite (seq_S (S k)), map_app. cbn [map]. rewrite fold1_snoc by discriminate. reflexivity.
  - exists e, t. split; [exact E1|]. split; [exact E2|]. split; [exact E3|]. split; [exact E4|]. split; [intros H1; apply E5; lia|].
    intros x y Hx Hy. rewrite E6 by auto. replace (S (length (fc_wb l) - 1)) with (length ns) by lia. reflexivity.
Qed.
End P.
