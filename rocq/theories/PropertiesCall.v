(** Generated by tools/genprops.py from CallLaws.v: property statements only. *)
From Coq Require Import String Reals Lra Lia Permutation.
From Verif Require Import Common CseModel ShapeModel ShapeProofs ElemModel ElemProofs NumSpec RealNum GradModel GradSpec MatrixSpec MlpSpec MlpModel MlpLaws GroupModel RbmTrainModel RbmTrainLaws DbSpec DbModel DbNet DbLaws.
From Verif Require ElemSpec EvalLaws UpdaterLaws EvalModel EvalSpec EvalProofs TrainSpec TrainProofs DqnModel DqnProofs NetLaws DbStep.
From Verif Require Import CallModel CallSpec CallProofs.
Local Open Scope list_scope.
From Verif Require Import CallLaws.

(** Any functions called between freezing and unfreezing a cost: if each changes a different
    variable and the nodes they use are operations of the cost's graph, then
    all of them use the values before the call, in whatever order they are called; other
    leaves keep their values and the cost is not left frozen. *)
Theorem C62_window :
  forall (V : Type) compat ord top (s s' : EvalModel.estate V) cost l,
    EvalSpec.valid_order ord -> EvalSpec.valid_top top -> TrainSpec.history compat ord top s ->
    NoDup (flat_map target l) -> (forall w n f, In (KNode w n f) l -> linked s n cost) ->
    frozen_call compat ord top s cost l = EvalModel.Done s' tt ->
    TrainSpec.history compat ord top s' /\ EvalModel.is_frozen s' cost = false /\ EvalModel.nodes s' = EvalModel.nodes s /\
    (forall v, EvalSpec.leaf s v -> ~ In v (flat_map target l) -> EvalModel.val s' v = EvalModel.val s v) /\
    (forall w n f, In (KNode w n f) l -> EvalSpec.leaf s w /\ exists x y z, EvalSpec.denotes s n (Some x) /\ EvalModel.val s w = Some y /\ f y x = Ok z /\ EvalModel.val s' w = Some z) /\
    (forall w f, In (KData w f) l -> EvalSpec.leaf s w /\ exists y z, EvalModel.val s w = Some y /\ f y = Ok z /\ EvalModel.val s' w = Some z).
Proof. exact C62_window_lemma. Qed.
Print Assumptions C62_window.

(** Fine tuning called: the graph may have been used in any way before; its leaves [loc v] hold
    the variables and placeholders, and the update nodes that build_finetune_functions makes
    are nodes of it, in one graph with the cost. If the function returns, every parameter has kept
    its shape and made the step of C61 for the parameters, inputs and labels before the call,
    all at once; nothing else has changed. *)
Theorem C62_finetune :
  forall (of_nat : nat -> R) same fresh use (n b : nat) sizes scope st d st' lr compat ord top loc node (s s' : EvalModel.estate (tens R)) train_in train_out cost_node cost us error,
    (forall a b, same a b = true -> a = b) -> (forall tA tB a b, same (GMat tA tB a b) (GMat tA tB a b) = true) -> (forall axis a b, same (GAx BAdd false axis a b) (GAx BAdd false axis a b) = true) ->
    EvalSpec.valid_order ord -> EvalSpec.valid_top top -> TrainSpec.history compat ord top s ->
    (forall u v, loc u = loc v -> u = v) -> (forall v, EvalModel.is_op (EvalModel.nodes s) (loc v) = false) ->
    0 < n -> 0 < b -> (0 < lr)%R -> Forall (fun h => 0 < h) sizes -> db_new Rnum of_nat n sizes scope st = Ok (d, st') ->
    let env := TrainSpec.leaf_env loc s in let env' := TrainSpec.leaf_env loc s' in
    exists vars, db_variables d = Ok (map Some vars) /\
    ((forall v, In v vars -> initialized env st' v) -> ~ In train_in vars -> matrix n b (env train_in) -> fst (env train_in) = [n; b] -> matrix (last sizes 0) b (env train_out) ->
      db_finetune Rnum fresh use INR same d env train_in train_out lr = Ok (cost, us, error) ->
      (forall v u, In (v, u) us -> (forall t, u <> GConst t) -> gshows fresh use loc s (node v) u /\ linked s (node v) cost_node) ->
      frozen_call compat ord top s cost_node (map (fun p => sub_closure (loc (fst p)) (node (fst p)) (snd p)) us) = EvalModel.Done s' tt ->
      let m := n_out sizes b in let f := fun e => logit e vars sizes n (env train_in) in
      TrainSpec.history compat ord top s' /\ EvalModel.is_frozen s' cost_node = false /\
      (forall v, In v vars -> fst (env' v) = fst (env v) /\ length (snd (env' v)) = length (snd (env v)) /\
         forall q, q < length (snd (env v)) -> exists D : nat -> R,
           (forall i, i < m -> derivable_pt_lim (fun x => f (set_elem env v q x) i) (nth q (snd (env v)) 0%R) (D i)) /\
           nth q (snd (env' v)) 0%R = (nth q (snd (env v)) 0 - lr * Sum (fun i => (share (f env) m i - 1) / INR m * D i) m)%R) /\
      (forall v, EvalSpec.leaf s v -> ~ In v (map loc vars) -> EvalModel.val s' v = EvalModel.val s v)).
Proof. exact C62_finetune_lemma. Qed.
Print Assumptions C62_finetune.

(** Training a restricted Boltzmann machine called: again the graph may have been used in any
    way before; node [loc ce] is the end of the chain, whose value [t] is whatever was
    sampled, and the update nodes that train makes are nodes of it, in one graph with
    the cost. If the function returns, every parameter has kept its shape and made the step of
    C59 (each element down by the learning rate times the derivative of the cost for the
    parameters and the sample before the call), all at once; the persistent variable, if there
    is one, has the values that the chain node had before the call; nothing else has changed. *)
Theorem C62_rbm :
  forall (of_nat : nat -> R) same fresh use (n h b b' : nat) scope st m st' lr compat ord top loc node (s s' : EvalModel.estate (tens R)) input ce t cost_node pers us,
    (forall x y, same x y = true -> x = y) ->
    EvalSpec.valid_order ord -> EvalSpec.valid_top top -> TrainSpec.history compat ord top s ->
    (forall u v, loc u = loc v -> u = v) -> (forall v, v <> ce -> EvalModel.is_op (EvalModel.nodes s) (loc v) = false) -> EvalSpec.denotes s (loc ce) (Some t) ->
    0 < n -> 0 < h -> (0 < lr)%R -> rbm_new Rnum of_nat n h scope st = (m, st') ->
    let env := fun v => if v =? ce then t else TrainSpec.leaf_env loc s v in let env' := TrainSpec.leaf_env loc s' in
    exists w hb vb, rbm_variables m = [Some w; Some hb; Some vb] /\
    (initialized env st' w -> initialized env st' hb -> initialized env st' vb -> ~ In ce [w; hb; vb] ->
      NetLaws.factor fresh use env n b input -> matrix n b' t -> input <> EVar ce -> (forall v, In v [w; hb; vb] -> has_leaf v input = false) ->
      (forall pv it, pers = Some (pv, it) -> ~ In pv [ce; w; hb; vb] /\ linked s it cost_node) ->
      rbm_updates Rnum fresh use INR same m env lr input (EVar ce) = Ok us ->
      (forall v u, In (v, u) us -> (forall c, u <> GConst c) -> gshows fresh use loc s (node v) u /\ linked s (node v) cost_node) ->
      frozen_call compat ord top s cost_node (map (fun p => sub_closure (loc (fst p)) (node (fst p)) (snd p)) us ++ match pers with Some (pv, it) => [set_closure (loc pv) it] | None => [] end) = EvalModel.Done s' tt ->
      TrainSpec.history compat ord top s' /\ EvalModel.is_frozen s' cost_node = false /\
      (exists cost, rbm_cost Rnum same m input (EVar ce) = Ok cost /\
       forall v, In v [w; hb; vb] -> fst (env' v) = fst (env v) /\ length (snd (env' v)) = length (snd (env v)) /\
         forall k, k < length (snd (env v)) -> exists slope,
           derivable_pt_lim (fun x => elem (geval Rnum fresh use INR (set_elem env v k x) cost) 0) (nth k (snd (env v)) 0%R) slope /\
           nth k (snd (env' v)) 0%R = (nth k (snd (env v)) 0 - lr * slope)%R) /\
      (forall pv it, pers = Some (pv, it) -> exists x, EvalSpec.denotes s it (Some x) /\ n_elems (fst x) = n_elems (fst (env pv)) /\ fst (env' pv) = fst (env pv) /\ length (snd (env' pv)) = length (snd (env pv)) /\
         forall k, k < n_elems (fst (env pv)) -> nth_error (snd (env' pv)) k = nth_error (snd x) k) /\
      (forall v, EvalSpec.leaf s v -> ~ In v (map loc [w; hb; vb]) -> (forall pv it, pers = Some (pv, it) -> v <> loc pv) -> EvalModel.val s' v = EvalModel.val s v)).
Proof. exact C62_rbm_lemma. Qed.
Print Assumptions C62_rbm.

(** Two variables 10 and 20 and their sum, frozen; the first is decreased by 1/10 of the sum, the
    second becomes the sum of the sum and the first. Both use the values before the call. *)
Example C62_nonvacuous :
  let ops := [EvalModel.ELeaf (Some 10); EvalModel.ELeaf (Some 20); EvalModel.EOp [0; 1] EvalLaws.sum_all; EvalModel.EOp [2; 0] EvalLaws.sum_all] in
  let l := [KNode 0 2 (fun y x => Ok (y - x / 10)); KNode 1 3 (fun y x => Ok x)] in
  exists s s', EvalModel.run (fun _ _ => true) EvalModel.audience EvalSpec.least EvalModel.einit ops = EvalModel.Done s tt /\ Forall EvalSpec.plain ops /\
    NoDup (flat_map target l) /\ (forall w n f, In (KNode w n f) l -> linked s n 2) /\
    frozen_call (fun _ _ => true) EvalModel.audience EvalSpec.least s 2 l = EvalModel.Done s' tt /\ EvalModel.val s' 0 = Some 7 /\ EvalModel.val s' 1 = Some 40.
Proof. exact C62_nonvacuous_lemma. Qed.

(** Finding: for a node outside the cost's graph the window has no effect; a function that
    uses such a node sees what the functions before it have written. *)
Theorem C62_other_graph_refuted :
  let ops := [EvalModel.ELeaf (Some 10); EvalModel.ELeaf (Some 20); EvalModel.EOp [0; 1] EvalLaws.sum_all; EvalModel.EOp [0; 0] EvalLaws.sum_all] in
  let l := [KNode 0 2 (fun y x => Ok (y - x / 10)); KNode 1 3 (fun y x => Ok x)] in
  exists s s', EvalModel.run (fun _ _ => true) EvalModel.audience EvalSpec.least EvalModel.einit ops = EvalModel.Done s tt /\
    frozen_call (fun _ _ => true) EvalModel.audience EvalSpec.least s 2 l = EvalModel.Done s' tt /\ EvalSpec.denotes s 3 (Some 20) /\ EvalModel.val s' 1 = Some 14.
Proof. exact C62_other_graph_refuted_lemma. Qed.
Print Assumptions C62_other_graph_refuted.
