(** Model of moving an rbm and of move assignment of mlp, rbm and db_net, on top of MlpModel. *)
From Coq Require Import String.
From Verif Require Import Common ShapeModel ElemModel GradModel MlpModel.

Section MoveLayer.
Context {T : Type}.
Notation store := (@store T).
Notation mlp := (@mlp T).

(** mlp.cpp:58-67, ilayer.cpp:40-47, mlp.cpp:132-146; [self]: both are the same object. Also
    returns what is left of the other object. A std::string moved from is empty. *)
Definition mlp_move_assign (self : bool) (this other : mlp) (st : store) : res (mlp * mlp * store) :=
  if self then Ok (this, this, st)
  else
    st <- mlp_delete this st ;;
    Ok (mkMlp (m_scope other) (m_nin other) (m_nout other) (m_layers other), mkMlp "" (m_nin other) (m_nout other) [], st).

(** rbm.cpp:193-197, 204-207, 217-223: every variable is moved to a new one; n_hidden_ is not
    moved; the old object keeps its pointers to the old variables. Returns the new object, the
    old one, the store and the addresses of the variables that now have no tensor (LeafMoveModel);
    the store still has what they had before. *)
Definition rbm_move (r : rbm) (st : store) : res (rbm * rbm * store * list (option nat)) :=
  x <- rbm_copy (r_scope r) None r st ;;
  Ok (fst x, mkRbm "" (r_nin r) (r_nhidden r) (r_w r) (r_hb r) (r_vb r), snd x, rbm_variables r).
(** rbm.cpp:60-69: the test for self assignment is the wrong way round *)
Definition rbm_move_assign (self : bool) (this other : rbm) (st : store) : res (rbm * rbm * store * list (option nat)) :=
  if self then
    st <- rbm_delete this st ;;
    rbm_move (mkRbm (r_scope this) (r_nin this) (r_nhidden this) None None None) st
  else Ok (this, other, st, []).

(** db_net.cpp:61-69, 181-187: log_layer_ stays with the other object *)
Definition db_move_assign (self : bool) (this other : db_net) (st : store) : res (db_net * db_net * store) :=
  if self then Ok (this, this, st)
  else
    st <- db_delete this st ;;
    Ok (mkDb (d_scope other) (d_nin other) (d_nout other) (d_layers other) None, mkDb "" (d_nin other) (d_nout other) [] (d_log other), st).
End MoveLayer.
