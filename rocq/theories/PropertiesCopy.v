(** Generated by tools/genprops.py from CopyLaws.v: property statements only. *)
From Coq Require Import String Ring Reals Lra Lia.
From Verif Require Import Common ShapeModel ElemModel ElemProofs NumSpec RealNum ElemLaws GradModel DqnModel MatrixSpec MatrixProofs MlpSpec MlpModel MlpProofs MlpLaws.
Local Open Scope list_scope.
From Verif Require Import CopyLaws.

(** Cloning a layer: the clone has copies of all parameters in the same order, in newly
    created variables; nothing else changes. *)
Theorem C45_fc_layer_clone :
  forall (T : Type) (l : fc_layer) scope (st : @store T), alive st (fc_variables l) ->
    exists l' st', fc_clone l scope st = Ok (l', st') /\ copied st st' (fc_variables l) (fc_variables l').
Proof. exact C45_fc_layer_clone_lemma. Qed.
Print Assumptions C45_fc_layer_clone.

(** Cloning an mlp: same sizes, copies of all parameters in the same order in newly created
    variables, and for every input the same output. *)
Theorem C45_mlp_clone :
  forall (T : Type) (N : num T) same fresh use (m : @mlp T) scope st,
    alive st (mlp_variables m) -> Forall (fun a => by_value N fresh use (snd a)) (m_layers m) ->
    exists m' st', mlp_clone m scope st = Ok (m', st') /\ m_nin m' = m_nin m /\ m_nout m' = m_nout m /\
      copied st st' (mlp_variables m) (mlp_variables m') /\
      forall env input in_shape, (forall p, In p (mlp_variables m) \/ In p (mlp_variables m') -> holds st' env p) ->
        output_value N same fresh use env m' input in_shape = output_value N same fresh use env m input in_shape.
Proof. exact C45_mlp_clone_lemma. Qed.
Print Assumptions C45_mlp_clone.

(** Training either leaves the other unchanged: the output of any mlp depends only on its own
    variables and the leaves of the input, and no variable of the clone is one of the store
    the original lives in. *)
Theorem C45_mlp_independent :
  forall (T : Type) (N : num T) same fresh use (m : @mlp T) env env' input in_shape,
    Forall (fun a => by_value N fresh use (snd a)) (m_layers m) ->
    (forall v, In v (mlp_variables m) \/ has_leaf v input = true -> env v = env' v) ->
    output_value N same fresh use env m input in_shape = output_value N same fresh use env' m input in_shape.
Proof. exact C45_mlp_independent_lemma. Qed.
Print Assumptions C45_mlp_independent.

Theorem C45_clone_disjoint :
  forall (T : Type) (st st' : @store T) orig copies, alive st orig -> copied st st' orig copies ->
    forall p, In p orig -> ~ In p copies.
Proof. exact C45_clone_disjoint_lemma. Qed.
Print Assumptions C45_clone_disjoint.

(** sigmoid, tanh and the identity depend only on the layer's value *)
Theorem C45_activations :
  forall same fresh use, (forall a b, same a b = true -> a = b) ->
    by_value Rnum fresh use (mk_sigmoid Rnum) /\ by_value Rnum fresh use (mk_tanh Rnum same) /\ by_value Rnum fresh use mk_id.
Proof. exact C45_activations_lemma. Qed.
Print Assumptions C45_activations.

(** Assigning one mlp to another: the old parameters of the target are deleted, its new ones
    are copies of the source's, which keeps its own; the target then computes the same.
    Assigning an mlp to itself changes nothing. *)
Theorem C45_mlp_assign :
  forall (T : Type) (N : num T) same fresh use (this other : @mlp T) st,
    alive st (mlp_variables this) -> alive st (mlp_variables other) -> NoDup (mlp_variables this) ->
    (forall p, In p (mlp_variables this) -> ~ In p (mlp_variables other)) ->
    Forall (fun a => by_value N fresh use (snd a)) (m_layers other) ->
    mlp_assign true this this st = Ok (this, st) /\
    exists m' st', mlp_assign false this other st = Ok (m', st') /\
      m_scope m' = m_scope other /\ m_nin m' = m_nin other /\ m_nout m' = m_nout other /\
      (forall p, In p (mlp_variables this) -> deref st' p = UB) /\
      (forall p, p < length st -> ~ In p (mlp_variables this) -> deref st' p = deref st p) /\
      NoDup (mlp_variables m') /\
      Forall2 (fun p q => length st <= q /\ exists a b, deref st p = Ok a /\ deref st' q = Ok b /\ same_param a b) (mlp_variables other) (mlp_variables m') /\
      forall env input in_shape, (forall p, In p (mlp_variables other) \/ In p (mlp_variables m') -> holds st' env p) ->
        output_value N same fresh use env m' input in_shape = output_value N same fresh use env other input in_shape.
Proof. exact C45_mlp_assign_lemma. Qed.
Print Assumptions C45_mlp_assign.

(** Deleting a layer deletes exactly its parameters. Copy-assigning: nothing for the same
    object; otherwise the target's parameters are deleted and replaced by new copies of the
    source's, in the same order; the target keeps its scope. Move-assigning: the target's
    parameters are deleted, it then has the source's own (not copies), the source none.
    Moving: the same without anything to delete. *)
Theorem C45_fc_layer_assign :
  forall (T : Type) (this other : fc_layer) (st : @store T),
    alive st (fc_variables this) -> alive st (fc_variables other) -> NoDup (fc_variables this) ->
    (forall p, In p (fc_variables this) -> ~ In p (fc_variables other)) ->
    (exists st', fc_delete this st = Ok st' /\
      (forall p, In p (fc_variables this) -> deref st' p = UB) /\ (forall p, ~ In p (fc_variables this) -> deref st' p = deref st p)) /\
    fc_assign true this this st = Ok (this, st) /\
    (exists l' st', fc_assign false this other st = Ok (l', st') /\ fc_scope l' = fc_scope this /\
      (forall p, In p (fc_variables this) -> deref st' p = UB) /\
      (forall p, p < length st -> ~ In p (fc_variables this) -> deref st' p = deref st p) /\
      NoDup (fc_variables l') /\
      Forall2 (fun p q => length st <= q /\ exists a b, deref st p = Ok a /\ deref st' q = Ok b /\ same_param a b) (fc_variables other) (fc_variables l')) /\
    fc_move_assign true this this st = Ok (this, this, st) /\
    (exists l' old st', fc_move_assign false this other st = Ok (l', old, st') /\ fc_scope l' = fc_scope this /\
      fc_variables l' = fc_variables other /\ fc_variables old = [] /\
      (forall p, In p (fc_variables this) -> deref st' p = UB) /\ (forall p, ~ In p (fc_variables this) -> deref st' p = deref st p)) /\
    (exists l' old, fc_move this = (l', old) /\ fc_scope l' = fc_scope this /\ fc_variables l' = fc_variables this /\ fc_variables old = []).
Proof. exact C45_fc_layer_assign_lemma. Qed.
Print Assumptions C45_fc_layer_assign.

(** Moving an mlp: the new object has the same parameters (not copies), the old one none. *)
Theorem C45_mlp_move :
  forall (T : Type) (N : num T) same fresh use env (m : @mlp T) input in_shape,
    let '(m', old) := mlp_move m in
    mlp_variables m' = mlp_variables m /\ m_nin m' = m_nin m /\ m_nout m' = m_nout m /\ mlp_variables old = [] /\
    output_value N same fresh use env m' input in_shape = output_value N same fresh use env m input in_shape.
Proof. exact C45_mlp_move_lemma. Qed.
Print Assumptions C45_mlp_move.

(** Cloning an rbm copies its parameters; finding: the size of its hidden layer is not copied,
    get_noutput of the clone is never set. *)
Theorem C45_rbm_clone :
  forall (T : Type) (r : rbm) w hb vb scope (st : @store T), rbm_variables r = [Some w; Some hb; Some vb] -> alive st [w; hb; vb] ->
    exists r' w' hb' vb' st', rbm_clone r scope st = Ok (r', st') /\ rbm_variables r' = [Some w'; Some hb'; Some vb'] /\ r_nin r' = r_nin r /\
      copied st st' [w; hb; vb] [w'; hb'; vb'] /\ r_nhidden r' = None.
Proof. exact C45_rbm_clone_lemma. Qed.
Print Assumptions C45_rbm_clone.

(** Finding: assigning one rbm to another does nothing at all, and assigning an rbm to itself
    deletes its parameters and then copies from null pointers. *)
Theorem C45_rbm_assign_refuted :
  (forall (T : Type) (this other : rbm) (st : @store T), rbm_assign false this other st = Ok (this, st)) /\
  (forall (T : Type) (r : rbm) w hb vb (st : @store T), rbm_variables r = [Some w; Some hb; Some vb] -> NoDup [w; hb; vb] -> alive st [w; hb; vb] ->
     rbm_assign true r r st = UB).
Proof. exact C45_rbm_assign_refuted_lemma. Qed.
Print Assumptions C45_rbm_assign_refuted.

(** Finding: a clone (or the target of an assignment, or a moved-to object) of a db_net has no
    output layer: whatever the network, prop_up on an input of the right shape, get_variables
    (so also save and initialize) follow a null pointer; so does copying a gd_net that trains
    one. *)
Theorem C45_db_net_clone_refuted :
  forall same (d : db_net) scope (st : @store R), Forall (rbm_alive st) (d_layers d) ->
    (exists d' st', db_clone d scope st = Ok (d', st') /\ length (d_layers d') = length (d_layers d) /\ d_nin d' = d_nin d /\ d_nout d' = d_nout d /\
       db_variables d' = UB /\ forall e r, db_prop_up Rnum same d' e [d_nin d; r] = UB) /\
    (let '(d', _) := db_move d in db_variables d' = UB /\ forall e r, db_prop_up Rnum same d' e [d_nin d; r] = UB).
Proof. exact C45_db_net_clone_refuted_lemma. Qed.
Print Assumptions C45_db_net_clone_refuted.

(** Copying a gd_net whose network is an mlp: its output is, for the same parameter values and
    the same contents of the placeholder, that of the original. *)
Theorem C45_gd_net_copy :
  forall same fresh use (m : @mlp R) scope (st : @store R) (t_in t_in' : nat),
    alive st (mlp_variables m) -> Forall (fun a => by_value Rnum fresh use (snd a)) (m_layers m) ->
    exists c st', compound_clone (CMlp m) scope st = Ok (c, st') /\
      forall env in_shape, (forall p, In p (mlp_variables m) \/ (exists m', c = CMlp m' /\ In p (mlp_variables m')) -> holds st' env p) ->
        env t_in' = env t_in ->
        (x <- gd_output Rnum same c t_in' in_shape ;; eval Rnum fresh use env x) =
        (x <- gd_output Rnum same (CMlp m) t_in in_shape ;; eval Rnum fresh use env x).
Proof. exact C45_gd_net_copy_lemma. Qed.
Print Assumptions C45_gd_net_copy.

(** A copied dq_net has the parameters, the counters and the values of both networks of the
    original, and chooses the same actions. Finding: its replay memory is empty (and after
    assignment it is still that of the target), so that training it has no effect where the
    original learns. *)
Theorem C45_dqn_copy :
  forall d d0 : dqn,
    d_par (dq_copy d) = d_par d /\ source_vars (dq_copy d) = source_vars d /\ target_vars (dq_copy d) = target_vars d /\
    actions_executed (dq_copy d) = actions_executed d /\ iteration (dq_copy d) = iteration d /\
    n_store_called (dq_copy d) = n_store_called d /\ n_train_called (dq_copy d) = n_train_called d /\
    (forall r1 r2 greedy, (x <- action (dq_copy d) r1 r2 greedy ;; Ok (snd x)) = (x <- action d r1 r2 greedy ;; Ok (snd x))) /\
    source_vars (dq_assign false d0 d) = source_vars d /\ target_vars (dq_assign false d0 d) = target_vars d /\ dq_assign true d d = d.
Proof. exact C45_dqn_copy_lemma. Qed.
Print Assumptions C45_dqn_copy.

(** Training the original samples its memory and updates its network; training the copy at the
    same moment returns without having done anything. *)
Theorem C45_dqn_copy_forgets_refuted :
  (forall d : dqn, experiences (dq_copy d) = []) /\ (forall d0 d : dqn, experiences (dq_assign false d0 d) = experiences d0) /\
  (forall fresh upd (d : dqn) indices, train_interval (d_par d) <> 0 -> n_train_called d mod train_interval (d_par d) = 0 -> 0 < mini_batch_size (d_par d) ->
     train fresh upd (dq_copy d) indices = Ok (dq_copy d) /\
     (mini_batch_size (d_par d) <= length (experiences d) -> forall d', train fresh upd d indices = Ok d' ->
        iteration d' = S (iteration d) /\ exists b, fed d' = Some b /\ source_vars d' = upd b (source_vars d) (target_vars d))) /\
  (exists fresh upd d d' indices, train_interval (d_par d) <> 0 /\ n_train_called d mod train_interval (d_par d) = 0 /\
     0 < mini_batch_size (d_par d) <= length (experiences d) /\ train fresh upd d indices = Ok d').
Proof. exact C45_dqn_copy_forgets_refuted_lemma. Qed.
Print Assumptions C45_dqn_copy_forgets_refuted.

(** A two-layer mlp over the integers, cloned: the hypotheses hold. *)
Example C45_nonvacuous :
  exists (m : @mlp Z) st, mlp_new Znum Z.of_nat 2 [(3, mk_id); (1, mk_id)] "net"%string [] = (m, st) /\
    alive st (mlp_variables m) /\ NoDup (mlp_variables m) /\ length (mlp_variables m) = 4 /\
    (forall fresh use, Forall (fun a => by_value Znum fresh use (snd a)) (m_layers m)) /\
    (exists m' st', mlp_clone m ""%string st = Ok (m', st') /\ m_scope m' = "net_cpy"%string /\ length st' = 8 /\ mlp_variables m' = [4; 5; 6; 7]).
Proof. exact C45_nonvacuous_lemma. Qed.
