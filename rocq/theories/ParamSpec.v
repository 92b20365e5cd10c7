(** The parameters of new layers and networks: name, shape and how they are initialized, in the
    order get_variables lists them. *)
From Coq Require Import String.
From Verif Require Import Common ShapeModel TransformModel MatmulModel ElemModel GradModel MlpModel.
Local Open Scope string_scope.
Local Open Scope list_scope.

(** the names of a fully connected layer with k inputs *)
Definition fc_names (scope : string) (k : nat) : list string :=
  flat_map (fun i => [scope ++ "_weights_" ++ decimal i; scope ++ "_bias_" ++ decimal i]%string) (seq 0 k).
(** the names of a Boltzmann machine *)
Definition rbm_names (scope : string) : list string := [scope ++ "_weights"; scope ++ "_hidden_bias"; scope ++ "_visible_bias"]%string.
(** the names of a network of one-input layers called scope ++ sep ++ 0, 1, ...; of k layers *)
Definition net_names (sep scope : string) (k : nat) : list string :=
  flat_map (fun i => fc_names (scope ++ sep ++ decimal i)%string 1) (seq 0 k).
(** the names of a belief network with k machines *)
Definition db_names (scope : string) (k : nat) : list string :=
  flat_map (fun i => rbm_names (scope ++ ":rbm_" ++ decimal i)%string) (seq 0 k) ++ fc_names (scope ++ ":logres")%string 1.

Section Spec.
Context {T : Type} (N : num T) (of_nat : nat -> T).
(** shape and initializer: weights from n inputs to c outputs are uniform between +-1/sqrt n *)
Definition dense_weight (n c : nat) : shape * @init T :=
  ([c; n], IUniform (n_neg N (n_div N (n_one N) (n_sqrt N (of_nat n)))) (n_div N (n_one N) (n_sqrt N (of_nat n)))).
(** those of a machine are uniform between +-4 sqrt (6 / (n + h)) *)
Definition rbm_weight (n h : nat) : shape * @init T :=
  let lim := n_mul N (of_nat 4) (n_sqrt N (n_div N (of_nat 6) (of_nat (h + n)))) in ([h; n], IUniform (n_neg N lim) lim).
(** biases are zero *)
Definition zeros (n : nat) : shape * @init T := ([n], IConst (n_zero N)).

Definition fc_params (ns : list nat) (c : nat) : list (shape * @init T) := flat_map (fun n => [dense_weight n c; zeros c]) ns.
Definition rbm_params (n h : nat) : list (shape * @init T) := [rbm_weight n h; zeros h; zeros n].
(** layers of the given sizes one after the other *)
Fixpoint mlp_params (n : nat) (sizes : list nat) : list (shape * @init T) :=
  match sizes with [] => [] | c :: rest => fc_params [n] c ++ mlp_params c rest end.
(** machines of all sizes but the last, and a fully connected layer of the last *)
Fixpoint db_params (n : nat) (sizes : list nat) : list (shape * @init T) :=
  match sizes with
  | [] => []
  | [c] => fc_params [n] c
  | h :: rest => rbm_params n h ++ db_params h rest
  end.
(** uninitialized variables of these names, shapes and initializers *)
Fixpoint variables (names : list string) (ps : list (shape * @init T)) : list (option (@var T)) :=
  match names, ps with
  | name :: names, (s, i) :: ps => Some (mkVar name s i None) :: variables names ps
  | _, _ => []
  end.
(** a constructor that creates exactly these variables, at the addresses vs *)
Definition creates (names : list string) (ps : list (shape * @init T)) (st st' : @store T) (vs : list nat) : Prop :=
  length names = length ps /\ vs = seq (length st) (length ps) /\ st' = st ++ variables names ps.
(** a copy: the variables at vs' are new and differ from those at vs in their names only *)
Definition copies (names : list string) (st st' : @store T) (vs vs' : list nat) : Prop :=
  length names = length vs /\ vs' = seq (length st) (length vs) /\
  exists vars, Forall2 (fun p v => nth_error st p = Some (Some v)) vs vars /\
    st' = st ++ map (fun x => Some (mkVar (fst x) (v_shape (snd x)) (v_init (snd x)) (v_data (snd x)))) (combine names vars).
End Spec.
