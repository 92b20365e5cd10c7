(** Generated by tools/genprops.py from MoveLayerLaws.v: property statements only. *)
From Coq Require Import String Reals Lra Lia.
From Verif Require Import Common ShapeModel ElemModel ElemProofs NumSpec RealNum ElemLaws GradModel DqnModel MatrixSpec MatrixProofs MlpSpec MlpModel MlpProofs MlpLaws CopyLaws.
From Verif Require Import MoveLayerModel.
Local Open Scope list_scope.
From Verif Require Import MoveLayerLaws.

(** Move-assigning an mlp: for the same object nothing; otherwise the target's parameters are
    deleted, it takes over everything of the source, parameters (not copies) and scope too, and
    computes what the source did; the source has no parameters left; no other variable changes. *)
Theorem C45_mlp_move_assign :
  forall (T : Type) (N : num T) same fresh use env (this other : @mlp T) (st : @store T) input in_shape,
    alive st (mlp_variables this) -> NoDup (mlp_variables this) -> (forall p, In p (mlp_variables this) -> ~ In p (mlp_variables other)) ->
    mlp_move_assign true this this st = Ok (this, this, st) /\
    exists m' old st', mlp_move_assign false this other st = Ok (m', old, st') /\
      mlp_variables m' = mlp_variables other /\ m_scope m' = m_scope other /\ m_nin m' = m_nin other /\ m_nout m' = m_nout other /\ mlp_variables old = [] /\
      (forall p, In p (mlp_variables this) -> deref st' p = UB) /\ (forall p, ~ In p (mlp_variables this) -> deref st' p = deref st p) /\
      (forall p, In p (mlp_variables m') -> deref st' p = deref st p) /\
      output_value N same fresh use env m' input in_shape = output_value N same fresh use env other input in_shape.
Proof. exact C45_mlp_move_assign_lemma. Qed.
Print Assumptions C45_mlp_move_assign.

(** Moving an rbm: the new one has new variables with what the old ones held. Findings: the
    size of its hidden layer is not moved, get_noutput of it is never set; the old one still
    returns its variables, which have no tensor any more. *)
Theorem C45_rbm_move :
  forall (T : Type) (r : rbm) w hb vb (st : @store T), rbm_variables r = [Some w; Some hb; Some vb] -> alive st [w; hb; vb] ->
    exists r' old st' w' hb' vb', rbm_move r st = Ok (r', old, st', [Some w; Some hb; Some vb]) /\ rbm_variables r' = [Some w'; Some hb'; Some vb'] /\
      copied st st' [w; hb; vb] [w'; hb'; vb'] /\ r_scope r' = r_scope r /\ r_nin r' = r_nin r /\ r_nhidden r' = None /\
      rbm_variables old = rbm_variables r.
Proof. exact C45_rbm_move_lemma. Qed.
Print Assumptions C45_rbm_move.

(** Finding: move-assigning one rbm to another does nothing at all, and move-assigning an rbm
    to itself deletes its parameters and then follows null pointers. *)
Theorem C45_rbm_move_assign_refuted :
  (forall (T : Type) (this other : rbm) (st : @store T), rbm_move_assign false this other st = Ok (this, other, st, [])) /\
  (forall (T : Type) (r : rbm) w hb vb (st : @store T), rbm_variables r = [Some w; Some hb; Some vb] -> NoDup [w; hb; vb] -> alive st [w; hb; vb] ->
     rbm_move_assign true r r st = UB).
Proof. exact C45_rbm_move_assign_refuted_lemma. Qed.
Print Assumptions C45_rbm_move_assign_refuted.

(** Finding: assigning one db_net to another, by copy or by move, deletes all parameters of the
    target, the output layer's too, and gives it the rbm layers of the source, copied or taken
    over, but no output layer: prop_up on an input of the right shape and get_variables then
    follow a null pointer. After a move the source has no rbm layers and keeps its output layer. *)
Theorem C45_db_net_assign_refuted :
  forall same (this other : db_net) ps (st : @store R),
    db_variables this = Ok (map Some ps) -> alive st ps -> NoDup ps ->
    Forall (rbm_alive st) (d_layers other) -> (forall p, In (Some p) (flat_map rbm_variables (d_layers other)) -> ~ In p ps) ->
    db_assign true this this st = Ok (this, st) /\ db_move_assign true this this st = Ok (this, this, st) /\
    (exists d' st', db_assign false this other st = Ok (d', st') /\ length (d_layers d') = length (d_layers other) /\
       d_nin d' = d_nin other /\ d_nout d' = d_nout other /\ (forall p, In p ps -> deref st' p = UB) /\
       (forall p, p < length st -> ~ In p ps -> deref st' p = deref st p) /\
       db_variables d' = UB /\ forall e r, db_prop_up Rnum same d' e [d_nin other; r] = UB) /\
    (exists d' old st', db_move_assign false this other st = Ok (d', old, st') /\ d_layers d' = d_layers other /\
       d_nin d' = d_nin other /\ d_nout d' = d_nout other /\ (forall p, In p ps -> deref st' p = UB) /\
       (forall p, ~ In p ps -> deref st' p = deref st p) /\
       db_variables d' = UB /\ (forall e r, db_prop_up Rnum same d' e [d_nin other; r] = UB) /\ d_layers old = [] /\ d_log old = d_log other).
Proof. exact C45_db_net_assign_refuted_lemma. Qed.
Print Assumptions C45_db_net_assign_refuted.

(** Two networks of one rbm and an output layer each, one after the other in a store. *)
Example C45_move_nonvacuous :
  let v := Some (mkVar "" [1] (IConst 0%R) None) in
  let st := repeat v 10 : @store R in
  let d k := mkDb "n" 2 2 [mkRbm "r" 2 (Some 3) (Some k) (Some (k + 1)) (Some (k + 2))] (Some (mkFc "l" [(k + 3, k + 4)])) in
  db_variables (d 0) = Ok (map Some [0; 1; 2; 3; 4]) /\ alive st [0; 1; 2; 3; 4] /\ NoDup [0; 1; 2; 3; 4] /\
  Forall (rbm_alive st) (d_layers (d 5)) /\ (forall p, In (Some p) (flat_map rbm_variables (d_layers (d 5))) -> ~ In p [0; 1; 2; 3; 4]) /\
  let m k := mkMlp "m" 2 (Some 3) [(mkFc "l" [(k, k + 1)], mk_id)] : @mlp R in
  alive st (mlp_variables (m 0)) /\ NoDup (mlp_variables (m 0)) /\ (forall p, In p (mlp_variables (m 0)) -> ~ In p (mlp_variables (m 2))).
Proof. exact C45_move_nonvacuous_lemma. Qed.
