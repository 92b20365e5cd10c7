(** Laws of layers and networks: C44. *)
From Coq Require Import String Ring Reals Lra Lia.
From Verif Require Import Common ShapeModel ShapeSpec ShapeProofs TransformSpec TransformModel TransformProofs MatmulSpec MatmulModel ElemSpec ElemModel ElemProofs NumSpec RealNum ElemLaws GradModel MatrixSpec MatrixProofs MlpSpec MlpModel MlpProofs.
Local Open Scope list_scope.

(** ---- specification ---- *)
Section S.
Context {T : Type} (N : num T) (fresh : nat -> T) (use : bool).
Notation zero := (n_zero N).

(** arithmetic for which matmul is the matrix product: any, without ENABLE_STRASSEN; a ring
    with it (C22) *)
Definition exact_matmul : Prop :=
  use = true -> exists opp, ring_theory zero (n_one N) (n_add N) (n_mul N) (n_sub N) opp eq.

(** the variable at address p holds data of the shape it was created with *)
Definition initialized (env : nat -> tens T) (st : store) (p : nat) : Prop :=
  exists v : @var T, deref st p = Ok v /\ fst (env p) = v_shape v /\ length (snd (env p)) = n_elems (v_shape v).

(** an activation function that applies g to every element of a layer's output *)
Definition pointwise (f : @act T) (g : T -> T) : Prop :=
  forall env e t c r, layer_node e -> eval N fresh use env e = Ok t -> matrix c r t ->
    exists e' t', f e = Ok e' /\ eval N fresh use env e' = Ok t' /\ matrix c r t' /\
      forall x y, x < c -> y < r -> entry zero c t' x y = g (entry zero c t x y).

(** the layers with the parameters the variables hold, in the order get_variables lists them:
    weights and bias of each layer *)
Fixpoint layers_of (env : nat -> tens T) (vars sizes : list nat) (gs : list (T -> T)) : list layer :=
  match sizes, gs, vars with
  | c :: sizes, g :: gs, w :: b :: vars =>
    mkLayer c (entry zero c (env w)) (fun x => nth x (snd (env b)) zero) g :: layers_of env vars sizes gs
  | _, _, _ => []
  end.
End S.

(** ---- proofs ---- *)
Section P.
Context {T : Type} (N : num T) (of_nat : nat -> T) (same : @expr T -> @expr T -> bool) (fresh : nat -> T) (use : bool).
Notation zero := (n_zero N).
Notation add := (n_add N).
Notation mul := (n_mul N).

Lemma init_matrix env st p v c n : initialized (T := T) env st p -> deref st p = Ok v -> v_shape v = [c; n] -> 0 < c -> 0 < n -> matrix c n (env p).
Proof.
  intros (v' & E1 & E2 & E3) E S Hc Hn. rewrite E in E1. injection E1 as <-. rewrite S in *. repeat split; auto. rewrite E3. cbn. lia.
Qed.
Lemma init_vector env st p v c : initialized (T := T) env st p -> deref st p = Ok v -> v_shape v = [c] -> 0 < c -> vector c (env p).
Proof.
  intros (v' & E1 & E2 & E3) E S Hc. rewrite E in E1. injection E1 as <-. rewrite S in *. repeat split; auto. rewrite E3. cbn. lia.
Qed.

Fixpoint chain (st : store) (n : nat) (ls : list (fc_layer * act)) (hs : list (nat * @act T)) : Prop :=
  match ls, hs with
  | [], [] => True
  | (l, f) :: ls, (c, f') :: hs => f = f' /\ (exists w b (vw vb : @var T), fc_wb l = [(w, b)] /\ deref st w = Ok vw /\ v_shape vw = [c; n] /\ deref st b = Ok vb /\ v_shape vb = [c]) /\ chain st c ls hs
  | _, _ => False
  end.
Lemma chain_app st ext n ls hs : chain st n ls hs -> chain (st ++ ext) n ls hs.
Proof.
  revert n hs. induction ls as [|[l f] ls IH]; intros n [|[c f'] hs]; cbn [chain]; auto.
  intros (H1 & (w & b & vw & vb & H2 & H3 & H4 & H5 & H6) & H7). split; auto. split; auto.
  exists w, b, vw, vb. repeat split; auto using deref_app.
Qed.
Lemma mlp_chain scope n hs lvl st ls st' : mlp_layers_from N of_nat scope n hs lvl st = (ls, st') -> chain st' n ls hs /\ exists ext, st' = st ++ ext.
Proof.
  revert n lvl st ls st'. induction hs as [|[c f] hs IH]; intros n lvl st ls st'; cbn [mlp_layers_from].
  - intros [= <- <-]. split; [exact I|]. exists []. now rewrite app_nil_r.
  - destruct (fc_new N of_nat [n] c _ st) as [l st1] eqn:E1. destruct (mlp_layers_from N of_nat scope c hs (S lvl) st1) as [ls' st2] eqn:E2. intros [= <- <-].
    unfold fc_new in E1. destruct (fc_vars_from _ _ _ _ _ _ _) as [wb st1'] eqn:E. injection E1 as <- <-.
    destruct (fc_vars_ok N of_nat _ _ _ _ _ _ _ E) as ((ext1 & X1) & L & H). destruct (IH _ _ _ _ _ E2) as (C & ext2 & X2).
    split; [|exists (ext1 ++ ext2); now rewrite X2, X1, app_assoc].
    cbn [chain]. split; auto. split; auto. destruct (H 0 n eq_refl) as (w & b & vw & vb & A1 & A2 & A3 & A4 & A5 & _).
    exists w, b, vw, vb. cbn [fc_wb]. destruct wb as [|p [|? ?]]; cbn in L; try lia. cbn in A1. injection A1 as ->.
    rewrite X2. repeat split; auto using deref_app.
Qed.

Lemma chain_value (Ring : exact_matmul N use) st env r n ls hs gs e t : chain st n ls hs -> 0 < r ->
  (forall p, In p (flat_map (fun p => fc_variables (fst p)) ls) -> initialized env st p) ->
  Forall (fun h => 0 < fst h) hs -> Forall2 (fun h g => pointwise N fresh use (snd h) g) hs gs ->
  eval N fresh use env e = Ok t -> matrix n r t ->
  let L := layers_of N env (flat_map (fun p => fc_variables (fst p)) ls) (map fst hs) gs in
  exists e' t', mlp_fold N same ls e = Ok e' /\ eval N fresh use env e' = Ok t' /\ matrix (out_size n L) r t' /\
    forall x y, x < out_size n L -> y < r -> entry zero (out_size n L) t' x y = net_value zero add mul n L (entry zero n t) x y.
Proof.
  cbn zeta.
  assert (Gen : forall h, (forall x y, x < n -> y < r -> entry zero n t x y = h x y) -> chain st n ls hs -> 0 < r ->
  (forall p, In p (flat_map (fun p => fc_variables (fst p)) ls) -> initialized env st p) ->
  Forall (fun h => 0 < fst h) hs -> Forall2 (fun h g => pointwise N fresh use (snd h) g) hs gs ->
  eval N fresh use env e = Ok t -> matrix n r t ->
  let L := layers_of N env (flat_map (fun p => fc_variables (fst p)) ls) (map fst hs) gs in
  exists e' t', mlp_fold N same ls e = Ok e' /\ eval N fresh use env e' = Ok t' /\ matrix (out_size n L) r t' /\
    forall x y, x < out_size n L -> y < r -> entry zero (out_size n L) t' x y = net_value zero add mul n L h x y).
  2: { intros. now apply (Gen (entry zero n t)). }
  revert n hs gs e t. induction ls as [|[l f] ls IH]; intros n [|[c f'] hs] gs e t h Hh; cbn [chain]; try contradiction.
  - intros _ Hr Hi Hp Ha He Ht. cbn [flat_map layers_of map]. exists e, t. split; [reflexivity|]. split; [exact He|]. split; [exact Ht|]. exact Hh.
  - intros (<- & (w & b & vw & vb & W1 & W2 & W3 & W4 & W5) & C) Hr Hi Hp Ha He Ht. cbn [flat_map fst] in *.
    assert (Ev : fc_variables l = [w; b]) by (unfold fc_variables; now rewrite W1). rewrite Ev in *. cbn [app map] in *.
    inversion Ha as [|? g ? gs' Hg Hgs]; subst. inversion Hp as [|? ? Hc Hcs]; subst. cbn [fst snd] in *. cbn [layers_of app].
    assert (Hn : 0 < n) by apply Ht.
    assert (Mw : matrix c n (env w)) by (apply (init_matrix _ _ _ _ _ _ (Hi w (or_introl eq_refl)) W2 W3); auto).
    assert (Mb : vector c (env b)) by (apply (init_vector _ _ _ _ _ (Hi b (or_intror (or_introl eq_refl))) W4 W5); auto).
    destruct (fc_call_ok N same fresh use Ring env l [e] [t] [n] c r Hr ltac:(discriminate)) as (e1 & t1 & F1 & F2 & F3 & F4 & _ & F5).
    + now rewrite W1.
    + constructor; [exact He|constructor].
    + constructor; [exact Ht|constructor].
    + intros [|[|j]] m; cbn; try discriminate. intros [= <-]. exists w, b. rewrite W1. auto.
    + destruct (Hg env e1 t1 c r F2 F3 F4) as (e2 & t2 & G1 & G2 & G3 & G4).
      cbn [mlp_fold]. rewrite F1. cbn [bind]. rewrite G1. cbn [bind].
      apply (IH c hs gs' e2 t2); auto; [|intros p Hp'; apply Hi; right; right; exact Hp'].
      intros x y Hx Hy. rewrite G4, F5 by auto. cbn [size activation biases weights length seq map fold1 fold_left nth]. rewrite Ev. cbn [nth Nat.mul Nat.add].
      f_equal. unfold dense. f_equal. apply sumn_ext. intros q Hq. f_equal. now apply Hh.
Qed.

Lemma check_input_ok n s : is_compatible_with s [n; 0] = Ok true -> check_input n s = Ok tt.
Proof. intros H. unfold check_input. now rewrite H. Qed.
Lemma compat_batch n r : is_compatible_with [n; r] [n; 0] = Ok true.
Proof. apply compat_same_rank_iff; [reflexivity|]. constructor; [|constructor; [|constructor]]; unfold dim_agree; auto. Qed.
Lemma check_input_bad n s : is_compatible_with s [n; 0] = Ok false -> check_input n s = Abort.
Proof. intros H. unfold check_input. now rewrite H. Qed.
End P.

(** ---- C44 ---- *)

(** A new fully connected layer of [c] outputs: for every list of inputs with values of shape
    [n_i, batch], the node it returns has shape [c, batch] (with several inputs and a single
    element, [1]) and holds at column x and row y the sum over the inputs, in order, of
    sum_q input(q, y) * weights(x, q) + bias(x), the weights and biases being those listed by
    get_variables. *)
Lemma C44_fc_layer_value_lemma :
  forall (T : Type) (N : num T) (of_nat : nat -> T) same fresh use (env : nat -> tens T) (ns : list nat) (c r : nat) scope st l st' inputs ts,
    exact_matmul N use -> 0 < c -> 0 < r -> ns <> [] ->
    fc_new N of_nat ns c scope st = (l, st') ->
    (forall p, In p (fc_variables l) -> initialized env st' p) ->
    Forall2 (fun e t => eval N fresh use env e = Ok t) inputs ts -> Forall2 (fun n t => matrix n r t) ns ts ->
    exists e t, fc_call N same l inputs = Ok e /\ eval N fresh use env e = Ok t /\ matrix c r t /\ (length ns = 1 -> fst t = [c; r]) /\
      forall x y, x < c -> y < r -> entry (n_zero N) c t x y =
        fold1 (n_add N) (n_zero N) (map (fun i =>
          let n := nth i ns 0 in
          let weights := env (nth (2 * i) (fc_variables l) 0) in
          let bias := env (nth (2 * i + 1) (fc_variables l) 0) in
          let input := nth i ts ([], []) in
          dense (n_zero N) (n_add N) (n_mul N) n (entry (n_zero N) c weights) (fun x => nth x (snd bias) (n_zero N)) (entry (n_zero N) n input) x y)
        (seq 0 (length ns))).
Proof.
  intros T N of_nat same fresh use env ns c r scope st l st' inputs ts Ring Hc Hr Hn Hl Hi He Ht.
  unfold fc_new in Hl. destruct (fc_vars_from _ _ _ _ _ _ _) as [wb st1] eqn:E. injection Hl as <- <-.
  destruct (fc_vars_ok N of_nat _ _ _ _ _ _ _ E) as (_ & L & H).
  destruct (fc_call_ok N same fresh use Ring env (mkFc scope wb) inputs ts ns c r Hr Hn L He Ht) as (e & t & F1 & _ & F2 & F3 & F4 & F5).
  - intros j n Hj. destruct (H j n Hj) as (w & b & vw & vb & A1 & A2 & A3 & A4 & A5 & _). exists w, b. split; [exact A1|].
    destruct (fc_variables_nth _ _ _ _ A1) as (_ & _ & I1 & I2).
    assert (Hn0 : 0 < n).
    { assert (Lt : j < length ts) by (rewrite <- (F2_len _ _ _ Ht); apply nth_error_Some; congruence).
      destruct (nth_error ts j) as [t|] eqn:Et; [|apply nth_error_None in Et; lia]. apply (F2_nth _ _ _ j n t Ht Hj Et). }
    split; [eapply init_matrix|eapply init_vector]; eauto.
  - exists e, t. repeat split; auto; apply F3 || apply F5 || idtac.
Qed.

(** The variables of a new layer, in the order get_variables lists them: for every input a
    weight of shape [n_output, n_input] and a bias of shape [n_output], all newly created. *)
Lemma C44_fc_layer_parameters_lemma :
  forall (T : Type) (N : num T) (of_nat : nat -> T) (ns : list nat) (c : nat) scope st l st',
    fc_new N of_nat ns c scope st = (l, st') ->
    (exists added, st' = st ++ added) /\ length (fc_variables l) = 2 * length ns /\
    forall j n, nth_error ns j = Some n ->
      exists w b vw vb, nth_error (fc_variables l) (2 * j) = Some w /\ nth_error (fc_variables l) (2 * j + 1) = Some b /\
        deref st' w = Ok vw /\ v_shape vw = [c; n] /\ deref st' b = Ok vb /\ v_shape vb = [c] /\ length st <= w /\ length st <= b.
Proof.
  intros T N of_nat ns c scope st l st' Hl. unfold fc_new in Hl. destruct (fc_vars_from _ _ _ _ _ _ _) as [wb st1] eqn:E. injection Hl as <- <-.
  destruct (fc_vars_ok N of_nat _ _ _ _ _ _ _ E) as (X & L & H). split; [exact X|].
  assert (Lv : length (fc_variables (mkFc scope wb)) = 2 * length ns).
  { unfold fc_variables. cbn [fc_wb]. rewrite <- L. clear. induction wb as [|p wb IH]; cbn in *; [reflexivity|]. rewrite IH. lia. }
  split; [exact Lv|]. intros j n Hj. destruct (H j n Hj) as (w & b & vw & vb & A1 & A2). exists w, b, vw, vb.
  destruct (fc_variables_nth _ _ _ _ A1) as (B1 & B2 & _). assert (Hj' : j < length ns) by (apply nth_error_Some; congruence).
  split; [rewrite (nth_error_nth' _ 0) by lia; f_equal; exact B1|]. split; [rewrite (nth_error_nth' _ 0) by lia; f_equal; exact B2|]. exact A2.
Qed.

(** A new mlp of any list of layer sizes and pointwise activation functions composes its layers
    in order: its output for an input of shape [n_input, batch] has shape [last size, batch]
    (the input's size without layers) and every element is that of the composed layers. *)
Lemma C44_mlp_value_lemma :
  forall (T : Type) (N : num T) (of_nat : nat -> T) same fresh use (env : nat -> tens T) (n r : nat) (hs : list (nat * act)) (gs : list (T -> T)) scope st m st' e t,
    exact_matmul N use -> Forall (fun h => 0 < fst h) hs -> Forall2 (fun h g => pointwise N fresh use (snd h) g) hs gs ->
    mlp_new N of_nat n hs scope st = (m, st') ->
    (forall p, In p (mlp_variables m) -> initialized env st' p) ->
    eval N fresh use env e = Ok t -> fst t = [n; r] -> matrix n r t ->
    let L := layers_of N env (mlp_variables m) (map fst hs) gs in
    map size L = map fst hs /\
    exists e' t', mlp_prop_up N same m e (fst t) = Ok e' /\ eval N fresh use env e' = Ok t' /\ matrix (out_size n L) r t' /\
      forall x y, x < out_size n L -> y < r ->
        entry (n_zero N) (out_size n L) t' x y = net_value (n_zero N) (n_add N) (n_mul N) n L (entry (n_zero N) n t) x y.
Proof.
  intros T N of_nat same fresh use env n r hs gs scope st m st' e t Ring Hp Ha Hm Hi He Hs Ht L.
  unfold mlp_new in Hm. destruct (mlp_layers_from _ _ _ _ _ _ _) as [ls st1] eqn:E. injection Hm as <- <-.
  destruct (mlp_chain N of_nat _ _ _ _ _ _ _ E) as (C & _). split.
  - unfold L, mlp_variables. cbn [m_layers]. clear - C Ha. revert n ls C. induction Ha as [|[c f] g hs gs _ _ IH]; intros n [|[l f'] ls]; cbn [chain]; try contradiction; [reflexivity|].
    intros (_ & (w & b & vw & vb & W1 & _) & C). cbn [flat_map map fst]. unfold fc_variables at 1. rewrite W1. cbn [flat_map app fst snd layers_of map size].
    f_equal. now apply (IH c).
  - unfold mlp_prop_up. cbn [m_nin m_layers]. rewrite Hs, (check_input_ok n _ (compat_batch n r)). cbn [bind].
    apply (chain_value N same fresh use Ring st1 env r n ls hs gs e t); auto. apply Ht.
Qed.

(** An input whose shape cannot be a batch of inputs is rejected by prop_up. *)
Lemma C44_mlp_bad_input_lemma :
  forall (T : Type) (N : num T) same (m : @mlp T) e in_shape,
    is_compatible_with in_shape [m_nin m; 0] = Ok false -> mlp_prop_up N same m e in_shape = Abort.
Proof. intros T N same m e s H. unfold mlp_prop_up. now rewrite check_input_bad. Qed.

(** get_noutput of a new mlp is the size of its last layer; finding: without any layer it is
    never set. *)
Lemma C44_mlp_noutput_lemma :
  forall (T : Type) (N : num T) (of_nat : nat -> T) (n : nat) (hs : list (nat * act)) scope st,
    m_nin (fst (mlp_new N of_nat n hs scope st)) = n /\
    m_nout (fst (mlp_new N of_nat n hs scope st)) = match rev hs with [] => None | h :: _ => Some (fst h) end.
Proof.
  intros T N of_nat n hs scope st. unfold mlp_new. destruct (mlp_layers_from _ _ _ _ _ _ _) as [ls st1]. cbn [fst m_nin m_nout]. split; [reflexivity|].
  assert (G : forall o, last_size hs o = match rev hs with [] => o | h :: _ => Some (fst h) end); [|apply G].
  induction hs as [|[c f] hs IH]; intros o; cbn [last_size rev]; [reflexivity|]. rewrite IH. destruct (rev hs); reflexivity.
Qed.

Lemma un_mat fresh use env op e t c r : eval Rnum fresh use env e = Ok t -> matrix c r t ->
  exists t', eval Rnum fresh use env (EUn op e) = Ok t' /\ matrix c r t' /\
    forall x y, x < c -> y < r -> entry 0%R c t' x y = meaning Rnum op (entry 0%R c t x y).
Proof.
  intros He Ht. cbn [eval]. rewrite He. cbn [bind]. destruct (mat_un Rnum fresh c r (fwd_lambda Rnum op) t Ht) as (u & E1 & E2 & E3).
  exists u. split; [exact E1|]. split; [exact E2|]. intros x y Hx Hy. rewrite <- fwd_lambda_meaning. now apply E3.
Qed.
Lemma bin_mat fresh use env op e1 e2 t1 t2 c r : eval Rnum fresh use env e1 = Ok t1 -> matrix c r t1 -> eval Rnum fresh use env e2 = Ok t2 -> matrix c r t2 ->
  exists t', eval Rnum fresh use env (EBin op e1 e2) = Ok t' /\ matrix c r t' /\
    forall x y, x < c -> y < r -> entry 0%R c t' x y = bmeaning Rnum op (entry 0%R c t1 x y) (entry 0%R c t2 x y).
Proof.
  intros H1 M1 H2 M2. cbn [eval]. rewrite H1, H2. cbn [bind]. destruct (mat_bin Rnum fresh c r (bop_lambda Rnum op) t1 t2 M1 M2) as (u & E1 & E2 & E3).
  exists u. split; [exact E1|]. split; [exact E2|]. intros x y Hx Hy. destruct op; now apply E3.
Qed.
Lemma Reqb_false x y : x <> y -> n_eqb Rnum x y = false.
Proof. intros H. change (Reqb x y = false). destruct (Reqb x y) eqn:E; [apply Reqb_iff in E; contradiction|reflexivity]. Qed.
Lemma sigmoid_node e : layer_node e -> mk_sigmoid Rnum e = Ok (EUn (UDivL 1%R) (EUn (UAddL 1%R) (EUn UExp (EUn UNeg e)))).
Proof.
  intros H. assert (En : mk_neg Rnum e = EUn UNeg e) by (destruct e; cbn in H; try contradiction; reflexivity).
  unfold mk_sigmoid. cbn [mk_unary]. rewrite En. cbn [bind fold_node]. change (n_zero Rnum) with 0%R. change (n_one Rnum) with 1%R. rewrite !Reqb_false by lra. reflexivity.
Qed.
Lemma tanh_node same e : layer_node e -> (forall x, same (EUn (USubR x) (EUn UExp (EUn (UMulL 2%R) e))) (EUn (UAddR x) (EUn UExp (EUn (UMulL 2%R) e))) = false) ->
  mk_tanh Rnum same e = Ok (EBin BDiv (EUn (USubR 1%R) (EUn UExp (EUn (UMulL 2%R) e))) (EUn (UAddR 1%R) (EUn UExp (EUn (UMulL 2%R) e)))).
Proof.
  intros H Hs. assert (E : forall o, fold_node Rnum o e = EUn o e) by (intros o; destruct e; cbn in H; try contradiction; reflexivity).
  unfold mk_tanh. cbn [mk_unary]. assert (E1 : match e with EConst _ => mk_unary Rnum (UMulL 2%R) e | _ => mk_unary Rnum (UMulL 2%R) e end = Ok (EUn (UMulL 2%R) e)).
  { cbn [mk_unary]. destruct e; cbn in H; try contradiction; cbn [n_two n_zero n_one n_neg Rnum]; rewrite !Reqb_false by lra; reflexivity. }
  assert (E2 : mk_unary Rnum (UMulL (n_two Rnum)) e = Ok (EUn (UMulL 2%R) e)) by (destruct e; exact E1).
  cbn [mk_unary] in E2. rewrite E2. cbn [bind fold_node]. change (n_zero Rnum) with 0%R. change (n_one Rnum) with 1%R. rewrite !Reqb_false by lra. cbn [bind fold_node].
  unfold mk_binary. rewrite Hs. reflexivity.
Qed.

(** The activation functions in use are pointwise: sigmoid, tanh and the identity. *)
Lemma C44_activations_lemma :
  forall same fresh use, (forall a b, same a b = true -> a = b) ->
    pointwise Rnum fresh use (mk_sigmoid Rnum) (fun x => 1 / (1 + exp (- x)))%R /\
    pointwise Rnum fresh use (mk_tanh Rnum same) (fun x => (exp (2 * x) - 1) / (exp (2 * x) + 1))%R /\
    pointwise Rnum fresh use mk_id (fun x => x).
Proof.
  intros same fresh use Hsame. split; [|split].
  - intros env e t c r Hl He Ht. rewrite sigmoid_node by exact Hl. eexists.
    destruct (un_mat fresh use env UNeg e t c r He Ht) as (t1 & A1 & A2 & A3).
    destruct (un_mat fresh use env UExp _ t1 c r A1 A2) as (t2 & B1 & B2 & B3).
    destruct (un_mat fresh use env (UAddL 1%R) _ t2 c r B1 B2) as (t3 & C1 & C2 & C3).
    destruct (un_mat fresh use env (UDivL 1%R) _ t3 c r C1 C2) as (t4 & D1 & D2 & D3).
    exists t4. split; [reflexivity|]. split; [exact D1|]. split; [exact D2|]. intros x y Hx Hy.
    change (n_zero Rnum) with 0%R. rewrite D3, C3, B3, A3 by auto. reflexivity.
  - intros env e t c r Hl He Ht. rewrite tanh_node; [|exact Hl|].
    2: { intros x. destruct (same _ _) eqn:E; [apply Hsame in E; discriminate|reflexivity]. } eexists.
    destruct (un_mat fresh use env (UMulL 2%R) e t c r He Ht) as (t1 & A1 & A2 & A3).
    destruct (un_mat fresh use env UExp _ t1 c r A1 A2) as (t2 & B1 & B2 & B3).
    destruct (un_mat fresh use env (USubR 1%R) _ t2 c r B1 B2) as (t3 & C1 & C2 & C3).
    destruct (un_mat fresh use env (UAddR 1%R) _ t2 c r B1 B2) as (t4 & D1 & D2 & D3).
    destruct (bin_mat fresh use env BDiv _ _ t3 t4 c r C1 C2 D1 D2) as (t5 & F1 & F2 & F3).
    exists t5. split; [reflexivity|]. split; [exact F1|]. split; [exact F2|]. intros x y Hx Hy.
    change (n_zero Rnum) with 0%R. rewrite F3, C3, D3, B3, A3 by auto. reflexivity.
  - intros env e t c r Hl He Ht. exists e, t. repeat split; auto; apply Ht.
Qed.

Lemma rbm_new_vars {T} (N : num T) of_nat n h scope st r st' : rbm_new N of_nat n h scope st = (r, st') ->
  exists w hb vb v1 v2 v3, r_w r = Some w /\ r_hb r = Some hb /\ r_vb r = Some vb /\
    deref st' w = Ok v1 /\ v_shape v1 = [h; n] /\ deref st' hb = Ok v2 /\ v_shape v2 = [h] /\ deref st' vb = Ok v3 /\ v_shape v3 = [n].
Proof.
  unfold rbm_new. cbn [alloc]. intros [= <- <-]. cbn [r_w r_hb r_vb]. do 6 eexists. split; [reflexivity|]. split; [reflexivity|]. split; [reflexivity|].
  split; [apply deref_app, deref_app, deref_last|]. split; [reflexivity|]. split; [apply deref_app, deref_last|]. split; [reflexivity|]. split; [apply deref_last|reflexivity].
Qed.

(** A new rbm: prop_up gives the hidden distribution sigmoid(input . weights + hidden bias),
    prop_down the visible one, sigmoid(hidden . transposed weights + visible bias). *)
Lemma C44_rbm_value_lemma :
  forall (of_nat : nat -> R) fresh use (env : nat -> tens R) (n h r : nat) scope st m st',
    0 < n -> 0 < h -> 0 < r ->
    rbm_new Rnum of_nat n h scope st = (m, st') ->
    exists w hb vb, rbm_variables m = [Some w; Some hb; Some vb] /\
    (initialized env st' w -> initialized env st' hb -> initialized env st' vb ->
      (forall e t, eval Rnum fresh use env e = Ok t -> matrix n r t ->
         exists e' t', rbm_prop_up Rnum m e = Ok e' /\ eval Rnum fresh use env e' = Ok t' /\ matrix h r t' /\
           forall x y, x < h -> y < r -> entry 0%R h t' x y =
             (1 / (1 + exp (- (sumn 0 Rplus (fun q => entry 0 n t q y * entry 0 h (env w) x q) n + nth x (snd (env hb)) 0))))%R) /\
      (forall e t, eval Rnum fresh use env e = Ok t -> matrix h r t ->
         exists e' t', rbm_prop_down Rnum m e = Ok e' /\ eval Rnum fresh use env e' = Ok t' /\ matrix n r t' /\
           forall x y, x < n -> y < r -> entry 0%R n t' x y =
             (1 / (1 + exp (- (sumn 0 Rplus (fun q => entry 0 h t q y * entry 0 h (env w) q x) h + nth x (snd (env vb)) 0))))%R)).
Proof.
  intros of_nat fresh use env n h r scope st m st' Hn Hh Hr E.
  destruct (rbm_new_vars _ _ _ _ _ _ _ _ E) as (w & hb & vb & v1 & v2 & v3 & A1 & A2 & A3 & D1 & S1 & D2 & S2 & D3 & S3).
  exists w, hb, vb. split; [unfold rbm_variables; now rewrite A1, A2, A3|]. intros I1 I2 I3.
  pose proof (init_matrix _ _ _ _ _ _ I1 D1 S1 Hh Hn) as Mw. pose proof (init_vector _ _ _ _ _ I2 D2 S2 Hh) as Mh. pose proof (init_vector _ _ _ _ _ I3 D3 S3 Hn) as Mv.
  assert (Ring : use = true -> exists opp, ring_theory (n_zero Rnum) (n_one Rnum) (n_add Rnum) (n_mul Rnum) (n_sub Rnum) opp eq) by (intros _; exists Ropp; exact RTheory).
  assert (Act := proj1 (C44_activations_lemma (fun _ _ => false) fresh use ltac:(discriminate))). split.
  - intros e t He Ht.
    destruct (fc_one_ok Rnum fresh use Ring env [e] [(w, hb)] 0 h n r e t w hb eq_refl eq_refl He Ht Mw Mh) as (e1 & F1 & F2 & t1 & F3 & F4 & F5 & F6).
    destruct (Act env e1 t1 h r F2 F3 F5) as (e2 & t2 & G1 & G2 & G3 & G4).
    exists e2, t2. split; [unfold rbm_prop_up; rewrite A1, A2; cbn [ptr_of bind]; unfold fc_one in F1; cbn [rd nth_error bind fst snd] in F1; rewrite F1; exact G1|].
    split; [exact G2|]. split; [exact G3|]. intros x y Hx Hy. change 0%R with (n_zero Rnum) at 1. rewrite G4, F6 by auto. reflexivity.
  - intros e t He Ht. unfold rbm_prop_down. rewrite A1, A3. cbn [ptr_of bind]. unfold mk_axb, mk_mat. cbn [cview_of mk_tr bind].
    assert (Ee : exists t1, eval Rnum fresh use env (EAxB 1 (EMat false true e (ETr (EVar w))) (EVar vb)) = Ok t1 /\ matrix n r t1 /\
      forall x y, x < n -> y < r -> entry 0%R n t1 x y = (sumn 0 Rplus (fun q => entry 0 h t q y * entry 0 h (env w) q x) h + nth x (snd (env vb)) 0)%R).
    { cbn [eval]. rewrite He. cbn [bind].
      destruct (mat_tr Rnum fresh h n (env w) Mw) as (u & U1 & U2 & U3). rewrite U1. cbn [bind].
      destruct (mat_mul Rnum fresh use Ring n r h t u Ht U2) as (v & V1 & V2 & V3 & V4). rewrite V1. cbn [bind].
      destruct (mat_bias Rnum fresh n r (n_add Rnum) v (env vb) V3 Mv) as (z & Z1 & Z2 & Z3 & Z4). exists z. split; [exact Z1|]. split; [exact Z3|].
      intros x y Hx Hy. change 0%R with (n_zero Rnum) at 1. rewrite Z4, V4 by auto. change (n_add Rnum) with Rplus. f_equal. apply sumn_ext. intros q Hq. rewrite U3 by auto. reflexivity. }
    destruct Ee as (t1 & T1 & T2 & T3). destruct (Act env (EAxB 1 (EMat false true e (ETr (EVar w))) (EVar vb)) t1 n r I T1 T2) as (e2 & t2 & G1 & G2 & G3 & G4).
    exists e2, t2. split; [exact G1|]. split; [exact G2|]. split; [exact G3|]. intros x y Hx Hy. change 0%R with (n_zero Rnum) at 1. rewrite G4 by auto.
    change (n_zero Rnum) with 0%R. rewrite T3 by auto. reflexivity.
Qed.

(** integer arithmetic, for examples *)
Definition Znum : num Z :=
  {| n_zero := 0%Z; n_one := 1%Z; n_two := 2%Z; n_add := Z.add; n_sub := Z.sub; n_mul := Z.mul; n_div := Z.div; n_neg := Z.opp;
     n_abs := Z.abs; n_sin := fun x => x; n_cos := fun x => x; n_tan := fun x => x; n_exp := fun x => x; n_sqrt := Z.sqrt;
     n_round := fun x => x; n_log := fun x => x; n_pow := Z.pow; n_eqb := Z.eqb; n_ltb := Z.ltb |}.

(** two inputs, layers of sizes 3 and 2, a batch of two: the hypotheses hold, and the output *)
Lemma C44_nonvacuous_lemma :
  let same := fun _ _ : @expr Z => false in
  let hs := [(3, mk_id); (2, mk_id)] in
  let '(m, st) := mlp_new Znum Z.of_nat 2 hs "net"%string [] in
  let env := fun v => match v with
    | 0 => ([3; 2], [1; 2; 3; 4; 5; 6]%Z) | 1 => ([3], [10; 20; 30]%Z)
    | 2 => ([2; 3], [1; -1; 2; 0; 0; 1]%Z) | 3 => ([2], [5; 7]%Z) | _ => ([2; 2], [1; 2; 3; 4]%Z) end in
  exact_matmul Znum false /\ Forall (fun h => 0 < fst h) hs /\
  Forall2 (fun h g => pointwise Znum (fun _ => 77%Z) false (snd h) g) hs [(fun x => x); (fun x => x)] /\
  mlp_variables m = [0; 1; 2; 3] /\ (forall p, In p (mlp_variables m) -> initialized env st p) /\
  matrix 2 2 (env 4) /\
  exists e', mlp_prop_up Znum same m (EVar 4) [2; 2] = Ok e' /\
    eval Znum (fun _ => 77%Z) false env e' = Ok ([2; 2], [88; 33; 126; 41]%Z).
Proof.
  cbn zeta. assert (Hid : pointwise Znum (fun _ => 77%Z) false (@mk_id Z) (fun x => x)) by (intros env e t c r Hl He Ht; exists e, t; repeat split; auto; apply Ht).
  destruct (mlp_new Znum Z.of_nat 2 [(3, mk_id); (2, mk_id)] "net" []) as [m st] eqn:E. unfold mlp_new in E. cbn in E. injection E as <- <-.
  split; [intros H; discriminate|]. split; [repeat constructor|]. split; [constructor; [exact Hid|constructor; [exact Hid|constructor]]|]. split; [reflexivity|]. split.
  - cbn. intros p [<-|[<-|[<-|[<-|[]]]]]; eexists; repeat split.
  - split; [repeat split; auto|]. eexists. split; [reflexivity|]. vm_compute. reflexivity.
Qed.
