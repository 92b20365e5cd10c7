(** Model of the layers and networks of app/rocnnet: fc_layer, mlp, rbm, db_net and the graph
    of gd_net. Nodes are the expressions of GradModel; variables live in a store and objects
    hold their positions in it (their addresses). *)
From Coq Require Import String DecimalString.
From Verif Require Import Common ShapeModel TransformModel MatmulModel ElemModel GradModel.
Local Open Scope string_scope.
Local Open Scope list_scope.

Section Mlp.
Context {T : Type} (N : num T) (of_nat : nat -> T) (same : @expr T -> @expr T -> bool).
Notation one := (n_one N).

(** initializers given to the constructors: rand_uniform and const_init *)
Inductive init := IUniform (lo hi : T) | IConst (c : T).
(** variable.ipp: a variable with its label, shape, initializer and, once initialized, data *)
Record var := mkVar { v_label : string; v_shape : shape; v_init : init; v_data : option (tens T) }.
(** all variables ever created, by address; None once deleted *)
Definition store := list (option var).
Definition alloc (v : var) (st : store) : nat * store := (length st, st ++ [Some v]).
(** following a pointer to a deleted or absent variable is undefined behaviour *)
Definition deref (st : store) (p : nat) : res var :=
  match nth_error st p with Some (Some v) => Ok v | _ => UB end.
Definition free (p : nat) (st : store) : res store := _ <- deref st p ;; Ok (set_nth p None st).
(** nnutils::formatter << n *)
Definition decimal (n : nat) : string := NilZero.string_of_uint (Nat.to_uint n).
Definition relabel (l : string) (v : var) : var := mkVar l (v_shape v) (v_init v) (v_data v).

(** ---- fc_layer ---- *)
Record fc_layer := mkFc { fc_scope : string; fc_wb : list (nat * nat) }.

(** fc_layer.cpp:19-29: the loop over n_inputs from position i on; -1 / sqrt(n) and 1 / sqrt(n) *)
Fixpoint fc_vars_from (scope : string) (n_output : nat) (n_inputs : list nat) (i : nat) (st : store) : list (nat * nat) * store :=
  match n_inputs with
  | [] => ([], st)
  | n :: rest =>
    let lim := n_div N one (n_sqrt N (of_nat n)) in
    let '(w, st) := alloc (mkVar (scope ++ "_weights_" ++ decimal i) [n_output; n] (IUniform (n_neg N lim) lim) None) st in
    let '(b, st) := alloc (mkVar (scope ++ "_bias_" ++ decimal i) [n_output] (IConst (n_zero N)) None) st in
    let '(l, st) := fc_vars_from scope n_output rest (S i) st in
    ((w, b) :: l, st)
  end.
(** fc_layer.cpp:16-30 *)
Definition fc_new (n_inputs : list nat) (n_output : nat) (scope : string) (st : store) : fc_layer * store :=
  let '(l, st) := fc_vars_from scope n_output n_inputs 0 st in (mkFc scope l, st).

(** fc_layer.cpp:69-82 operator (). [inputs[i]] past the end is undefined. *)
Definition fc_one (inputs : list (@expr T)) (wb : list (nat * nat)) (i : nat) : res (@expr T) :=
  p <- rd wb i ;; x <- rd inputs i ;;
  mk_axb N 1 (mk_mat x (EVar (fst p)) false false) (EVar (snd p)).
Definition fc_call (l : fc_layer) (inputs : list (@expr T)) : res (@expr T) :=
  r <- fc_one inputs (fc_wb l) 0 ;;
  for_ (length (fc_wb l) - 1) (fun i r => x <- fc_one inputs (fc_wb l) (S i) ;; mk_binary N same BAdd r x) r.

(** fc_layer.cpp:84-93 *)
Definition fc_variables (l : fc_layer) : list nat := flat_map (fun p => [fst p; snd p]) (fc_wb l).

(** fc_layer.cpp:117-128 copy_helper: clone every variable and label it with the new scope *)
Fixpoint fc_copy_from (scope : string) (wb : list (nat * nat)) (i : nat) (st : store) : res (list (nat * nat) * store) :=
  match wb with
  | [] => Ok ([], st)
  | (w, b) :: rest =>
    vw <- deref st w ;; vb <- deref st b ;;
    let '(w', st) := alloc (relabel (scope ++ "_weights_" ++ decimal i) vw) st in
    let '(b', st) := alloc (relabel (scope ++ "_bias_" ++ decimal i) vb) st in
    r <- fc_copy_from scope rest (S i) st ;;
    Ok ((w', b') :: fst r, snd r)
  end.
(** ilayer.cpp:48-58 *)
Definition copied_scope (old scope : string) : string := if String.eqb scope "" then old ++ "_cpy" else scope.
(** fc_layer.cpp:37-40, 95-99, 107-110 *)
Definition fc_clone (l : fc_layer) (scope : string) (st : store) : res (fc_layer * store) :=
  let sc := copied_scope (fc_scope l) scope in
  r <- fc_copy_from sc (fc_wb l) 0 st ;; Ok (mkFc sc (fst r), snd r).
(** fc_layer.cpp:32-35, 135-143 *)
Fixpoint free_all (ps : list nat) (st : store) : res store :=
  match ps with [] => Ok st | p :: ps => st <- free p st ;; free_all ps st end.
Definition fc_delete (l : fc_layer) (st : store) : res store := free_all (fc_variables l) st.
(** fc_layer.cpp:47-55; [self]: both are the same object. The scope is not assigned. *)
Definition fc_assign (self : bool) (this other : fc_layer) (st : store) : res (fc_layer * store) :=
  if self then Ok (this, st)
  else
    st <- fc_delete this st ;;
    r <- fc_copy_from (fc_scope this) (fc_wb other) 0 st ;; Ok (mkFc (fc_scope this) (fst r), snd r).
(** fc_layer.cpp:57-65, 130-133; also returns what is left of the other object *)
Definition fc_move_assign (self : bool) (this other : fc_layer) (st : store) : res (fc_layer * fc_layer * store) :=
  if self then Ok (this, this, st)
  else
    st <- fc_delete this st ;;
    Ok (mkFc (fc_scope this) (fc_wb other), mkFc (fc_scope other) [], st).
(** fc_layer.cpp:101-105, 130-133: the new object and what is left of the old one *)
Definition fc_move (l : fc_layer) : fc_layer * fc_layer := (mkFc (fc_scope l) (fc_wb l), mkFc "" []).

(** ---- mlp ---- *)
(** VAR_FUNC, icompound.hpp:19 *)
Definition act := @expr T -> res (@expr T).
(** n_output_ is None until something has been stored in it (mlp.hpp:66) *)
Record mlp := mkMlp { m_scope : string; m_nin : nat; m_nout : option nat; m_layers : list (fc_layer * act) }.

(** mlp.cpp:20-29: the loop over the hidden layers *)
Fixpoint mlp_layers_from (scope : string) (n_input : nat) (hiddens : list (nat * act)) (level : nat) (st : store)
    : list (fc_layer * act) * store :=
  match hiddens with
  | [] => ([], st)
  | (n_output, f) :: rest =>
    let '(l, st) := fc_new [n_input] n_output (scope ++ ":hidden_" ++ decimal level) st in
    let '(ls, st) := mlp_layers_from scope n_output rest (S level) st in
    ((l, f) :: ls, st)
  end.
Fixpoint last_size (hiddens : list (nat * act)) (none : option nat) : option nat :=
  match hiddens with [] => none | (n, _) :: rest => last_size rest (Some n) end.
(** mlp.cpp:16-30 *)
Definition mlp_new (n_input : nat) (hiddens : list (nat * act)) (scope : string) (st : store) : mlp * store :=
  let '(ls, st) := mlp_layers_from scope n_input hiddens 0 st in
  (mkMlp scope n_input (last_size hiddens None) ls, st).

(** mlp.cpp:73-75, db_net.cpp:73-75: assert that the input's shape is compatible with {n_input_, 0} *)
Definition check_input (n_input : nat) (in_shape : shape) : res unit :=
  c <- is_compatible_with in_shape [n_input; 0] ;; assert_ c.
(** mlp.cpp:76-85 *)
Fixpoint mlp_fold (ls : list (fc_layer * act)) (output : @expr T) : res (@expr T) :=
  match ls with
  | [] => Ok output
  | (l, f) :: rest => hypothesis <- fc_call l [output] ;; o <- f hypothesis ;; mlp_fold rest o
  end.
Definition mlp_prop_up (m : mlp) (input : @expr T) (in_shape : shape) : res (@expr T) :=
  _ <- check_input (m_nin m) in_shape ;; mlp_fold (m_layers m) input.

(** mlp.cpp:87-96 *)
Definition mlp_variables (m : mlp) : list nat := flat_map (fun p => fc_variables (fst p)) (m_layers m).

(** mlp.cpp:120-130 copy_helper *)
Fixpoint mlp_copy_from (scope : string) (ls : list (fc_layer * act)) (i : nat) (st : store) : res (list (fc_layer * act) * store) :=
  match ls with
  | [] => Ok ([], st)
  | (l, f) :: rest =>
    c <- fc_clone l (scope ++ ":hiddens" ++ decimal i) st ;;
    r <- mlp_copy_from scope rest (S i) (snd c) ;;
    Ok ((fst c, f) :: fst r, snd r)
  end.
(** mlp.cpp:37-40, 98-102, 110-113 *)
Definition mlp_clone (m : mlp) (scope : string) (st : store) : res (mlp * store) :=
  let sc := copied_scope (m_scope m) scope in
  r <- mlp_copy_from sc (m_layers m) 0 st ;; Ok (mkMlp sc (m_nin m) (m_nout m) (fst r), snd r).
(** mlp.cpp:32-35, 139-146 *)
Definition mlp_delete (m : mlp) (st : store) : res store := free_all (mlp_variables m) st.
(** mlp.cpp:47-56 *)
Definition mlp_assign (self : bool) (this other : mlp) (st : store) : res (mlp * store) :=
  if self then Ok (this, st)
  else
    st <- mlp_delete this st ;;
    r <- mlp_copy_from (m_scope other) (m_layers other) 0 st ;;
    Ok (mkMlp (m_scope other) (m_nin other) (m_nout other) (fst r), snd r).
(** mlp.cpp:104-108, 132-137 *)
Definition mlp_move (m : mlp) : mlp * mlp :=
  (mkMlp (m_scope m) (m_nin m) (m_nout m) (m_layers m), mkMlp "" (m_nin m) (m_nout m) []).

(** ---- activation functions of futils.ipp as node builders ---- *)
(** futils.ipp:10-14 *)
Definition mk_sigmoid : act := fun x =>
  v1 <- mk_unary N UNeg x ;; v2 <- mk_unary N UExp v1 ;; v3 <- mk_unary N (UAddL one) v2 ;; mk_unary N (UDivL one) v3.
(** futils.ipp:16-21 *)
Definition mk_tanh : act := fun x =>
  v1 <- mk_unary N (UMulL (n_two N)) x ;; etx <- mk_unary N UExp v1 ;;
  v2 <- mk_unary N (USubR one) etx ;; v3 <- mk_unary N (UAddR one) etx ;; mk_binary N same BDiv v2 v3.
(** futils.ipp:23-28 *)
Definition mk_softmax : act := fun x =>
  e <- mk_unary N UExp x ;; mk_binary N same BDiv e (ESum e).
(** passing the node on unchanged *)
Definition mk_id : act := fun x => Ok x.

(** ---- rbm ---- *)
(** n_hidden_ is None until something has been stored in it, pointers are None when null *)
Record rbm := mkRbm { r_scope : string; r_nin : nat; r_nhidden : option nat; r_w : option nat; r_hb : option nat; r_vb : option nat }.
Definition ptr_of (p : option nat) : res nat := match p with Some a => Ok a | None => UB end.

(** rbm.cpp:16-32: limits 4 * sqrt(6 / (n_hidden + n_input)) *)
Definition rbm_new (n_input n_hidden : nat) (scope : string) (st : store) : rbm * store :=
  let lim := n_mul N (of_nat 4) (n_sqrt N (n_div N (of_nat 6) (of_nat (n_hidden + n_input)))) in
  let '(w, st) := alloc (mkVar (scope ++ "_weights") [n_hidden; n_input] (IUniform (n_neg N lim) lim) None) st in
  let '(hb, st) := alloc (mkVar (scope ++ "_hidden_bias") [n_hidden] (IConst (n_zero N)) None) st in
  let '(vb, st) := alloc (mkVar (scope ++ "_visible_bias") [n_input] (IConst (n_zero N)) None) st in
  (mkRbm scope n_input (Some n_hidden) (Some w) (Some hb) (Some vb), st).
(** rbm.cpp:71-80 *)
Definition rbm_prop_up (r : rbm) (input : @expr T) : res (@expr T) :=
  w <- ptr_of (r_w r) ;; hb <- ptr_of (r_hb r) ;;
  pre_nl <- mk_axb N 1 (mk_mat input (EVar w) false false) (EVar hb) ;; mk_sigmoid pre_nl.
(** rbm.cpp:82-90 *)
Definition rbm_prop_down (r : rbm) (hidden : @expr T) : res (@expr T) :=
  w <- ptr_of (r_w r) ;; vb <- ptr_of (r_vb r) ;;
  pre_nl <- mk_axb N 1 (mk_mat hidden (EVar w) false true) (EVar vb) ;; mk_sigmoid pre_nl.
(** rbm.cpp:178-185 *)
Definition rbm_variables (r : rbm) : list (option nat) := [r_w r; r_hb r; r_vb r].
(** rbm.cpp:209-215 copy_helper: n_hidden_ is not copied, labels are kept *)
Definition rbm_copy (scope : string) (nhidden : option nat) (other : rbm) (st : store) : res (rbm * store) :=
  w <- ptr_of (r_w other) ;; vw <- deref st w ;; let '(w', st) := alloc vw st in
  hb <- ptr_of (r_hb other) ;; vh <- deref st hb ;; let '(hb', st) := alloc vh st in
  vb <- ptr_of (r_vb other) ;; vv <- deref st vb ;; let '(vb', st) := alloc vv st in
  Ok (mkRbm scope (r_nin other) nhidden (Some w') (Some hb') (Some vb'), st).
(** rbm.cpp:187-191, 199-202 *)
Definition rbm_clone (r : rbm) (scope : string) (st : store) : res (rbm * store) :=
  rbm_copy (copied_scope (r_scope r) scope) None r st.
(** rbm.cpp:34-37, 225-234 *)
Definition free_ptr (p : option nat) (st : store) : res store := match p with Some a => free a st | None => Ok st end.
Definition rbm_delete (r : rbm) (st : store) : res store :=
  st <- free_ptr (r_w r) st ;; st <- free_ptr (r_hb r) st ;; free_ptr (r_vb r) st.
(** rbm.cpp:49-58: the test for self assignment is the wrong way round. After clean_up this
    object's (so the other's) pointers are null. *)
Definition rbm_assign (self : bool) (this other : rbm) (st : store) : res (rbm * store) :=
  if self then
    st <- rbm_delete this st ;;
    let this := mkRbm (r_scope this) (r_nin this) (r_nhidden this) None None None in
    rbm_copy (r_scope this) (r_nhidden this) this st
  else Ok (this, st).

(** ---- db_net ---- *)
Record db_net := mkDb { d_scope : string; d_nin : nat; d_nout : nat; d_layers : list rbm; d_log : option fc_layer }.

(** db_net.cpp:17-32: all sizes but the last become rbm layers, the last the fc_layer; also
    the size of the last rbm *)
Fixpoint db_layers_from (scope : string) (n_input : nat) (hiddens : list nat) (level : nat) (st : store) : list rbm * nat * store :=
  match hiddens with
  | [] => ([], n_input, st)
  | n :: rest =>
    let '(r, st) := rbm_new n_input n (scope ++ ":rbm_" ++ decimal level) st in
    let '(rs, m, st) := db_layers_from scope n rest (S level) st in
    (r :: rs, m, st)
  end.
(** db_net.cpp:12-34 *)
Definition db_new (n_input : nat) (hiddens : list nat) (scope : string) (st : store) : res (db_net * store) :=
  match rev hiddens with
  | [] => Abort
  | n_output :: _ =>
    let '(rs, m, st) := db_layers_from scope n_input (removelast hiddens) 0 st in
    let '(l, st) := fc_new [m] n_output (scope ++ ":logres") st in
    Ok (mkDb scope n_input n_output rs (Some l), st)
  end.
(** db_net.cpp:71-82 *)
Fixpoint db_fold (rs : list rbm) (output : @expr T) : res (@expr T) :=
  match rs with [] => Ok output | r :: rest => o <- rbm_prop_up r output ;; db_fold rest o end.
Definition db_prop_up (d : db_net) (input : @expr T) (in_shape : shape) : res (@expr T) :=
  _ <- check_input (d_nin d) in_shape ;;
  output <- db_fold (d_layers d) input ;;
  match d_log d with
  | Some l => x <- fc_call l [output] ;; mk_softmax x
  | None => UB
  end.
(** db_net.cpp:129-140 *)
Definition db_variables (d : db_net) : res (list (option nat)) :=
  match d_log d with
  | Some l => Ok (flat_map rbm_variables (d_layers d) ++ map Some (fc_variables l))
  | None => UB
  end.
(** db_net.cpp:168-179 copy_helper: log_layer_ is not copied *)
Fixpoint db_copy_from (scope : string) (rs : list rbm) (i : nat) (st : store) : res (list rbm * store) :=
  match rs with
  | [] => Ok ([], st)
  | r :: rest =>
    c <- rbm_clone r (scope ++ ":rbm_" ++ decimal i) st ;;
    x <- db_copy_from scope rest (S i) (snd c) ;;
    Ok (fst c :: fst x, snd x)
  end.
(** db_net.cpp:43-46, 146-150, 158-161 *)
Definition db_clone (d : db_net) (scope : string) (st : store) : res (db_net * store) :=
  let sc := copied_scope (d_scope d) scope in
  x <- db_copy_from sc (d_layers d) 0 st ;; Ok (mkDb sc (d_nin d) (d_nout d) (fst x) None, snd x).
(** db_net.cpp:189-201 *)
Fixpoint rbms_delete (rs : list rbm) (st : store) : res store :=
  match rs with [] => Ok st | r :: rest => st <- rbm_delete r st ;; rbms_delete rest st end.
Definition db_delete (d : db_net) (st : store) : res store :=
  st <- rbms_delete (d_layers d) st ;;
  match d_log d with Some l => fc_delete l st | None => Ok st end.
(** db_net.cpp:51-59 *)
Definition db_assign (self : bool) (this other : db_net) (st : store) : res (db_net * store) :=
  if self then Ok (this, st)
  else
    st <- db_delete this st ;;
    x <- db_copy_from (d_scope other) (d_layers other) 0 st ;;
    Ok (mkDb (d_scope other) (d_nin other) (d_nout other) (fst x) None, snd x).
(** db_net.cpp:152-156, 181-187: log_layer_ stays with the old object *)
Definition db_move (d : db_net) : db_net * db_net :=
  (mkDb (d_scope d) (d_nin d) (d_nout d) (d_layers d) None, mkDb "" (d_nin d) (d_nout d) [] (d_log d)).

(** ---- gd_net ---- *)
(** icompound: the network a gd_net trains *)
Inductive compound := CMlp (m : mlp) | CRbm (r : rbm) | CDb (d : db_net).
Definition prop_up (c : compound) (input : @expr T) (in_shape : shape) : res (@expr T) :=
  match c with CMlp m => mlp_prop_up m input in_shape | CRbm r => rbm_prop_up r input | CDb d => db_prop_up d input in_shape end.
Definition compound_clone (c : compound) (scope : string) (st : store) : res (compound * store) :=
  match c with
  | CMlp m => x <- mlp_clone m scope st ;; Ok (CMlp (fst x), snd x)
  | CRbm r => x <- rbm_clone r scope st ;; Ok (CRbm (fst x), snd x)
  | CDb d => x <- db_clone d scope st ;; Ok (CDb (fst x), snd x)
  end.
Definition get_ninput (c : compound) : nat := match c with CMlp m => m_nin m | CRbm r => r_nin r | CDb d => d_nin d end.

(** gd_net.cpp:102-111 setup: the output and the error, from the placeholders' addresses and
    shapes *)
Definition gd_output (brain : compound) (input : nat) (in_shape : shape) : res (@expr T) :=
  prop_up brain (EVar input) in_shape.
Definition gd_error (brain : compound) (train_in expected_out : nat) (in_shape : shape) : res (@expr T) :=
  output <- prop_up brain (EVar train_in) in_shape ;;
  diff <- mk_binary N same BSub (EVar expected_out) output ;;
  mk_binary N same BMul diff diff.
End Mlp.
