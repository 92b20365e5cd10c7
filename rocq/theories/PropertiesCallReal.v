(** Generated by tools/genprops.py from CallRealLaws.v: property statements only. *)
From Coq Require Import String Reals Lra Lia FunctionalExtensionality Permutation.
From Verif Require Import Common CseModel ShapeModel ShapeProofs ElemModel ElemProofs NumSpec RealNum GradModel GradSpec MatrixSpec MlpSpec MlpModel MlpLaws GroupModel RbmTrainModel RbmTrainLaws DbSpec DbModel DbNet DbLaws.
From Verif Require ElemSpec EvalLaws UpdaterLaws EvalModel EvalSpec EvalProofs TrainSpec TrainProofs DqnModel DqnProofs NetLaws NetMlpProofs DbStep.
From Verif Require Import CallModel CallSpec CallProofs CallLaws.
From Verif Require MatrixProofs MatrixProofs CallReal CallBuild CseFullProofs RbmTrainProofs RbmTrainCost.
Local Open Scope list_scope.
From Verif Require Import CallRealLaws.

(** For every deep belief network, all parameters, inputs and labels, there is a graph with
    which the hypotheses of C62_finetune hold, in whatever order notifications and updates are
    processed, and on it the call returns. *)
Theorem C62_finetune_returns :
  forall (of_nat : nat -> R) same fresh use (n b : nat) sizes scope st d st' lr ord top env0 train_in train_out,
    (forall a b, same a b = true -> a = b) -> (forall tA tB a b, same (GMat tA tB a b) (GMat tA tB a b) = true) -> (forall axis a b, same (GAx BAdd false axis a b) (GAx BAdd false axis a b) = true) ->
    EvalSpec.valid_order ord -> EvalSpec.valid_top top ->
    0 < n -> 0 < b -> (0 < lr)%R -> lr <> 1%R -> Forall (fun h => 0 < h) sizes -> db_new Rnum of_nat n sizes scope st = Ok (d, st') ->
    exists vars, db_variables d = Ok (map Some vars) /\
    ((forall v, In v vars -> initialized env0 st' v) -> ~ In train_in vars -> matrix n b (env0 train_in) -> fst (env0 train_in) = [n; b] -> matrix (last sizes 0) b (env0 train_out) ->
      exists loc node s s' cost_node cost us error, let env := TrainSpec.leaf_env loc s in
        TrainSpec.history (fun _ _ => true) ord top s /\ (forall u v, loc u = loc v -> u = v) /\ (forall v, EvalModel.is_op (EvalModel.nodes s) (loc v) = false) /\
        (forall v, In v (train_in :: train_out :: vars) -> env v = env0 v) /\
        db_finetune Rnum fresh use INR same d env train_in train_out lr = Ok (cost, us, error) /\
        gshows fresh use loc s cost_node cost /\
        (forall v u, In (v, u) us -> (forall t, u <> GConst t) -> gshows fresh use loc s (node v) u /\ linked s (node v) cost_node) /\
        frozen_call (fun _ _ => true) ord top s cost_node (map (fun p => sub_closure (loc (fst p)) (node (fst p)) (snd p)) us) = EvalModel.Done s' tt).
Proof. exact C62_finetune_returns_lemma. Qed.
Print Assumptions C62_finetune_returns.

(** The same for training restricted Boltzmann machines, with a persistent chain. *)
Theorem C62_rbm_returns :
  forall (of_nat : nat -> R) same fresh use (n h b b' : nat) scope st m st' lr ord top env0 vi ce pv,
    (forall x y, same x y = true -> x = y) -> EvalSpec.valid_order ord -> EvalSpec.valid_top top ->
    0 < n -> 0 < h -> (0 < lr)%R -> lr <> 1%R -> rbm_new Rnum of_nat n h scope st = (m, st') ->
    exists w hb vb, rbm_variables m = [Some w; Some hb; Some vb] /\
    (initialized env0 st' w -> initialized env0 st' hb -> initialized env0 st' vb -> NoDup [vi; ce; pv; w; hb; vb] ->
      matrix n b (env0 vi) -> matrix n b' (env0 ce) -> matrix h b' (env0 pv) ->
      exists loc node s s' cost_node cost us it, let env := fun v => if v =? ce then env0 ce else TrainSpec.leaf_env loc s v in
        TrainSpec.history (fun _ _ => true) ord top s /\ (forall u v, loc u = loc v -> u = v) /\ (forall v, v <> ce -> EvalModel.is_op (EvalModel.nodes s) (loc v) = false) /\
        EvalSpec.denotes s (loc ce) (Some (env0 ce)) /\ (forall v, In v [vi; ce; pv; w; hb; vb] -> env v = env0 v) /\
        rbm_cost Rnum same m (EVar vi) (EVar ce) = Ok cost /\ rbm_updates Rnum fresh use INR same m env lr (EVar vi) (EVar ce) = Ok us /\
        NetLaws.factor fresh use env n b (EVar vi) /\ (forall v, In v [w; hb; vb] -> has_leaf v (@EVar R vi) = false) /\
        gshows fresh use loc s cost_node cost /\ linked s it cost_node /\
        (forall v u, In (v, u) us -> (forall t, u <> GConst t) -> gshows fresh use loc s (node v) u /\ linked s (node v) cost_node) /\
        frozen_call (fun _ _ => true) ord top s cost_node (map (fun p => sub_closure (loc (fst p)) (node (fst p)) (snd p)) us ++ [set_closure (loc pv) it]) = EvalModel.Done s' tt).
Proof. exact C62_rbm_returns_lemma. Qed.
Print Assumptions C62_rbm_returns.
