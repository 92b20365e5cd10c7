(** Generated by tools/genprops.py from MlpLaws.v: property statements only. *)
From Coq Require Import String Ring Reals Lra Lia.
From Verif Require Import Common ShapeModel ShapeSpec ShapeProofs TransformSpec TransformModel TransformProofs MatmulSpec MatmulModel ElemSpec ElemModel ElemProofs NumSpec RealNum ElemLaws GradModel MatrixSpec MatrixProofs MlpSpec MlpModel MlpProofs.
Local Open Scope list_scope.
From Verif Require Import MlpLaws.

(** A new fully connected layer of [c] outputs: for every list of inputs with values of shape
    [n_i, batch], the node it returns has shape [c, batch] (with several inputs and a single
    element, [1]) and holds at column x and row y the sum over the inputs, in order, of
    sum_q input(q, y) * weights(x, q) + bias(x), the weights and biases being those listed by
    get_variables. *)
Theorem C44_fc_layer_value :
  forall (T : Type) (N : num T) (of_nat : nat -> T) same fresh use (env : nat -> tens T) (ns : list nat) (c r : nat) scope st l st' inputs ts,
    exact_matmul N use -> 0 < c -> 0 < r -> ns <> [] ->
    fc_new N of_nat ns c scope st = (l, st') ->
    (forall p, In p (fc_variables l) -> initialized env st' p) ->
    Forall2 (fun e t => eval N fresh use env e = Ok t) inputs ts -> Forall2 (fun n t => matrix n r t) ns ts ->
    exists e t, fc_call N same l inputs = Ok e /\ eval N fresh use env e = Ok t /\ matrix c r t /\ (length ns = 1 -> fst t = [c; r]) /\
      forall x y, x < c -> y < r -> entry (n_zero N) c t x y =
        fold1 (n_add N) (n_zero N) (map (fun i =>
          let n := nth i ns 0 in
          let weights := env (nth (2 * i) (fc_variables l) 0) in
          let bias := env (nth (2 * i + 1) (fc_variables l) 0) in
          let input := nth i ts ([], []) in
          dense (n_zero N) (n_add N) (n_mul N) n (entry (n_zero N) c weights) (fun x => nth x (snd bias) (n_zero N)) (entry (n_zero N) n input) x y)
        (seq 0 (length ns))).
Proof. exact C44_fc_layer_value_lemma. Qed.
Print Assumptions C44_fc_layer_value.

(** The variables of a new layer, in the order get_variables lists them: for every input a
    weight of shape [n_output, n_input] and a bias of shape [n_output], all newly created. *)
Theorem C44_fc_layer_parameters :
  forall (T : Type) (N : num T) (of_nat : nat -> T) (ns : list nat) (c : nat) scope st l st',
    fc_new N of_nat ns c scope st = (l, st') ->
    (exists added, st' = st ++ added) /\ length (fc_variables l) = 2 * length ns /\
    forall j n, nth_error ns j = Some n ->
      exists w b vw vb, nth_error (fc_variables l) (2 * j) = Some w /\ nth_error (fc_variables l) (2 * j + 1) = Some b /\
        deref st' w = Ok vw /\ v_shape vw = [c; n] /\ deref st' b = Ok vb /\ v_shape vb = [c] /\ length st <= w /\ length st <= b.
Proof. exact C44_fc_layer_parameters_lemma. Qed.
Print Assumptions C44_fc_layer_parameters.

(** A new mlp of any list of layer sizes and pointwise activation functions composes its layers
    in order: its output for an input of shape [n_input, batch] has shape [last size, batch]
    (the input's size without layers) and every element is that of the composed layers. *)
Theorem C44_mlp_value :
  forall (T : Type) (N : num T) (of_nat : nat -> T) same fresh use (env : nat -> tens T) (n r : nat) (hs : list (nat * act)) (gs : list (T -> T)) scope st m st' e t,
    exact_matmul N use -> Forall (fun h => 0 < fst h) hs -> Forall2 (fun h g => pointwise N fresh use (snd h) g) hs gs ->
    mlp_new N of_nat n hs scope st = (m, st') ->
    (forall p, In p (mlp_variables m) -> initialized env st' p) ->
    eval N fresh use env e = Ok t -> fst t = [n; r] -> matrix n r t ->
    let L := layers_of N env (mlp_variables m) (map fst hs) gs in
    map size L = map fst hs /\
    exists e' t', mlp_prop_up N same m e (fst t) = Ok e' /\ eval N fresh use env e' = Ok t' /\ matrix (out_size n L) r t' /\
      forall x y, x < out_size n L -> y < r ->
        entry (n_zero N) (out_size n L) t' x y = net_value (n_zero N) (n_add N) (n_mul N) n L (entry (n_zero N) n t) x y.
Proof. exact C44_mlp_value_lemma. Qed.
Print Assumptions C44_mlp_value.

(** An input whose shape cannot be a batch of inputs is rejected by prop_up. *)
Theorem C44_mlp_bad_input :
  forall (T : Type) (N : num T) same (m : @mlp T) e in_shape,
    is_compatible_with in_shape [m_nin m; 0] = Ok false -> mlp_prop_up N same m e in_shape = Abort.
Proof. exact C44_mlp_bad_input_lemma. Qed.
Print Assumptions C44_mlp_bad_input.

(** get_noutput of a new mlp is the size of its last layer; finding: without any layer it is
    never set. *)
Theorem C44_mlp_noutput :
  forall (T : Type) (N : num T) (of_nat : nat -> T) (n : nat) (hs : list (nat * act)) scope st,
    m_nin (fst (mlp_new N of_nat n hs scope st)) = n /\
    m_nout (fst (mlp_new N of_nat n hs scope st)) = match rev hs with [] => None | h :: _ => Some (fst h) end.
Proof. exact C44_mlp_noutput_lemma. Qed.
Print Assumptions C44_mlp_noutput.

(** The activation functions in use are pointwise: sigmoid, tanh and the identity. *)
Theorem C44_activations :
  forall same fresh use, (forall a b, same a b = true -> a = b) ->
    pointwise Rnum fresh use (mk_sigmoid Rnum) (fun x => 1 / (1 + exp (- x)))%R /\
    pointwise Rnum fresh use (mk_tanh Rnum same) (fun x => (exp (2 * x) - 1) / (exp (2 * x) + 1))%R /\
    pointwise Rnum fresh use mk_id (fun x => x).
Proof. exact C44_activations_lemma. Qed.
Print Assumptions C44_activations.

(** A new rbm: prop_up gives the hidden distribution sigmoid(input . weights + hidden bias),
    prop_down the visible one, sigmoid(hidden . transposed weights + visible bias). *)
Theorem C44_rbm_value :
  forall (of_nat : nat -> R) fresh use (env : nat -> tens R) (n h r : nat) scope st m st',
    0 < n -> 0 < h -> 0 < r ->
    rbm_new Rnum of_nat n h scope st = (m, st') ->
    exists w hb vb, rbm_variables m = [Some w; Some hb; Some vb] /\
    (initialized env st' w -> initialized env st' hb -> initialized env st' vb ->
      (forall e t, eval Rnum fresh use env e = Ok t -> matrix n r t ->
         exists e' t', rbm_prop_up Rnum m e = Ok e' /\ eval Rnum fresh use env e' = Ok t' /\ matrix h r t' /\
           forall x y, x < h -> y < r -> entry 0%R h t' x y =
             (1 / (1 + exp (- (sumn 0 Rplus (fun q => entry 0 n t q y * entry 0 h (env w) x q) n + nth x (snd (env hb)) 0))))%R) /\
      (forall e t, eval Rnum fresh use env e = Ok t -> matrix h r t ->
         exists e' t', rbm_prop_down Rnum m e = Ok e' /\ eval Rnum fresh use env e' = Ok t' /\ matrix n r t' /\
           forall x y, x < n -> y < r -> entry 0%R n t' x y =
             (1 / (1 + exp (- (sumn 0 Rplus (fun q => entry 0 h t q y * entry 0 h (env w) q x) h + nth x (snd (env vb)) 0))))%R)).
Proof. exact C44_rbm_value_lemma. Qed.
Print Assumptions C44_rbm_value.

(** two inputs, layers of sizes 3 and 2, a batch of two: the hypotheses hold, and the output *)
Example C44_nonvacuous :
  let same := fun _ _ : @expr Z => false in
  let hs := [(3, mk_id); (2, mk_id)] in
  let '(m, st) := mlp_new Znum Z.of_nat 2 hs "net"%string [] in
  let env := fun v => match v with
    | 0 => ([3; 2], [1; 2; 3; 4; 5; 6]%Z) | 1 => ([3], [10; 20; 30]%Z)
    | 2 => ([2; 3], [1; -1; 2; 0; 0; 1]%Z) | 3 => ([2], [5; 7]%Z) | _ => ([2; 2], [1; 2; 3; 4]%Z) end in
  exact_matmul Znum false /\ Forall (fun h => 0 < fst h) hs /\
  Forall2 (fun h g => pointwise Znum (fun _ => 77%Z) false (snd h) g) hs [(fun x => x); (fun x => x)] /\
  mlp_variables m = [0; 1; 2; 3] /\ (forall p, In p (mlp_variables m) -> initialized env st p) /\
  matrix 2 2 (env 4) /\
  exists e', mlp_prop_up Znum same m (EVar 4) [2; 2] = Ok e' /\
    eval Znum (fun _ => 77%Z) false env e' = Ok ([2; 2], [88; 33; 126; 41]%Z).
Proof. exact C44_nonvacuous_lemma. Qed.
