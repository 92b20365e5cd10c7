(** Generated by tools/genprops.py from ParamLaws.v: property statements only. *)
From Coq Require Import String Ascii Lia DecimalString DecimalNat FinFun.
From Verif Require Import Common ShapeModel TransformModel MatmulModel ElemModel GradModel MlpModel ParamSpec.
Local Open Scope list_scope.
From Verif Require Import ParamLaws.

(** A new fully connected layer creates, for every input i, a weight scope_weights_i of shape
    [outputs, inputs], uniform between +-1/sqrt(inputs), and a zero bias scope_bias_i of shape
    [outputs]; get_variables lists exactly these new variables in this order, no two have the
    same name and nothing else changes. *)
Theorem C63_fc_layer :
  forall (T : Type) (N : num T) (of_nat : nat -> T) ns c scope st l st',
    fc_new N of_nat ns c scope st = (l, st') ->
    creates (fc_names scope (length ns)) (fc_params N of_nat ns c) st st' (fc_variables l) /\ NoDup (fc_names scope (length ns)).
Proof. exact C63_fc_layer_lemma. Qed.
Print Assumptions C63_fc_layer.

(** A new Boltzmann machine creates weights, hidden and visible biases. *)
Theorem C63_rbm :
  forall (T : Type) (N : num T) (of_nat : nat -> T) n h scope st r st',
    rbm_new N of_nat n h scope st = (r, st') ->
    r_nin r = n /\ r_nhidden r = Some h /\ r_scope r = scope /\
    exists vs, rbm_variables r = map Some vs /\ creates (rbm_names scope) (rbm_params N of_nat n h) st st' vs /\ NoDup (rbm_names scope).
Proof. exact C63_rbm_lemma. Qed.
Print Assumptions C63_rbm.

(** A new mlp creates the parameters of its layers scope:hidden_0, scope:hidden_1, ..., each
    taking the outputs of the one before. *)
Theorem C63_mlp :
  forall (T : Type) (N : num T) (of_nat : nat -> T) n (hs : list (nat * (@expr T -> res expr))) scope st m st',
    mlp_new N of_nat n hs scope st = (m, st') ->
    map snd (m_layers m) = map snd hs /\
    creates (net_names ":hidden_" scope (length hs)) (mlp_params N of_nat n (map fst hs)) st st' (mlp_variables m) /\
    NoDup (net_names ":hidden_" scope (length hs)).
Proof. exact C63_mlp_lemma. Qed.
Print Assumptions C63_mlp.

(** A new belief network creates the parameters of machines scope:rbm_0, ... of all sizes but
    the last, each taking the hidden units of the one before, and those of a fully connected
    layer scope:logres of the last size. Without sizes the constructor asserts. *)
Theorem C63_db_net :
  forall (T : Type) (N : num T) (of_nat : nat -> T) n hs scope st,
    (hs = [] -> db_new N of_nat n hs scope st = Abort) /\
    forall d st', db_new N of_nat n hs scope st = Ok (d, st') ->
      d_nin d = n /\ d_nout d = last hs 0 /\ length (d_layers d) = length hs - 1 /\
      exists vs, db_variables d = Ok (map Some vs) /\
        creates (db_names scope (length hs - 1)) (db_params N of_nat n hs) st st' vs /\ NoDup (db_names scope (length hs - 1)).
Proof. exact C63_db_net_lemma. Qed.
Print Assumptions C63_db_net.

(** A copy of a layer with living variables renames the new variables with the copy's scope
    (the old scope followed by _cpy when none is given) and leaves everything else as it is. *)
Theorem C63_fc_layer_clone :
  forall (T : Type) (l l' : fc_layer) scope (st st' : @store T),
    fc_clone l scope st = Ok (l', st') -> (forall p, In p (fc_variables l) -> p < length st) ->
    fc_scope l' = (if String.eqb scope "" then fc_scope l ++ "_cpy" else scope)%string /\
    copies (fc_names (fc_scope l') (length (fc_wb l))) st st' (fc_variables l) (fc_variables l') /\ NoDup (fc_names (fc_scope l') (length (fc_wb l))).
Proof. exact C63_fc_layer_clone_lemma. Qed.
Print Assumptions C63_fc_layer_clone.

(** A copy of an mlp calls its layers scope:hiddens0, scope:hiddens1, ..., not as the
    constructor does. *)
Theorem C63_mlp_clone :
  forall (T : Type) (m m' : @mlp T) scope (st st' : @store T),
    mlp_clone m scope st = Ok (m', st') -> (forall p, In p (mlp_variables m) -> p < length st) ->
    Forall (fun p => length (fc_wb (fst p)) = 1) (m_layers m) ->
    m_scope m' = (if String.eqb scope "" then m_scope m ++ "_cpy" else scope)%string /\
    copies (net_names ":hiddens" (m_scope m') (length (m_layers m))) st st' (mlp_variables m) (mlp_variables m') /\
    NoDup (net_names ":hiddens" (m_scope m') (length (m_layers m))).
Proof. exact C63_mlp_clone_lemma. Qed.
Print Assumptions C63_mlp_clone.

(** Finding: a copy of a Boltzmann machine keeps the names of the original, whatever scope is
    given. *)
Theorem C63_rbm_clone_names_refuted :
  forall (T : Type) (r r' : @rbm) scope (st st' : @store T) w hb vb vw vh vv,
    rbm_variables r = [Some w; Some hb; Some vb] -> nth_error st w = Some (Some vw) -> nth_error st hb = Some (Some vh) -> nth_error st vb = Some (Some vv) ->
    rbm_clone r scope st = Ok (r', st') ->
    exists w' hb' vb', rbm_variables r' = [Some w'; Some hb'; Some vb'] /\ ~ In w' [w; hb; vb] /\
      nth_error st' w' = Some (Some vw) /\ nth_error st' hb' = Some (Some vh) /\ nth_error st' vb' = Some (Some vv).
Proof. exact C63_rbm_clone_names_refuted_lemma. Qed.
Print Assumptions C63_rbm_clone_names_refuted.

(** new networks over the integers, a copy and its names *)
Example C63_nonvacuous :
  forall N : num nat,
  exists m st m' st' d st2,
    mlp_new N (fun n => n) 10 [(4, @mk_id nat); (2, @mk_id nat)] "net"%string [] = (m, st) /\
    mlp_variables m = [0; 1; 2; 3] /\ Forall (fun p => length (fc_wb (fst p)) = 1) (m_layers m) /\
    map (fun v => match v with Some v => (v_label v, v_shape v) | None => (""%string, []) end) st =
      [("net:hidden_0_weights_0", [4; 10]); ("net:hidden_0_bias_0", [4]); ("net:hidden_1_weights_0", [2; 4]); ("net:hidden_1_bias_0", [2])]%string /\
    mlp_clone m "" st = Ok (m', st') /\
    map (fun v => match v with Some v => v_label v | None => ""%string end) (skipn 4 st') =
      ["net_cpy:hiddens0_weights_0"; "net_cpy:hiddens0_bias_0"; "net_cpy:hiddens1_weights_0"; "net_cpy:hiddens1_bias_0"]%string /\
    db_new N (fun n => n) 10 [4; 2] "db"%string [] = Ok (d, st2) /\
    map (fun v => match v with Some v => (v_label v, v_shape v) | None => (""%string, []) end) st2 =
      [("db:rbm_0_weights", [4; 10]); ("db:rbm_0_hidden_bias", [4]); ("db:rbm_0_visible_bias", [10]); ("db:logres_weights_0", [2; 4]); ("db:logres_bias_0", [2])]%string.
Proof. exact C63_nonvacuous_lemma. Qed.
