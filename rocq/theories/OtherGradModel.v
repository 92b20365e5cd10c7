(** Model of the derivatives of the operations that GroupModel leaves out: fit, clip_norm,
    comparisons of two nodes, arg_max and cross_corr2d. Here such a node is always the root:
    its arguments are expressions of GroupModel. *)
From Coq Require Import String.
From Verif Require Import Common ShapeModel TransformModel MatmulModel ElemModel GradModel CseModel GroupModel.

Section Other.
Context {T : Type} (N : num T) (fresh : nat -> T) (strassen_on : bool) (of_nat : nat -> T).
Context (same : @gexpr T -> @gexpr T -> bool).
Notation gexpr := (@gexpr T).
Notation geval := (geval N fresh strassen_on of_nat).
Notation ginfo := (ginfo N fresh strassen_on of_nat same).

Inductive onode :=
| OFit (a watch : gexpr)                           (* transform.ipp:90-134 *)
| OClip (cap : T) (a : gexpr)                      (* clip_norm, elementary.ipp:1039-1089, of a node that is not a constant *)
| OCond (compare : T -> T -> bool) (a b : gexpr)   (* conditional of two nodes, elementary.ipp:1162-1203, neither a constant of one element *)
| OArgMax (axis : option nat) (a : gexpr)          (* transform.ipp:355-458 *)
| OCorr (d1 d2 : nat) (a filter : gexpr).          (* transform.ipp:506-559 *)

(** the arguments given to immutable::get: transform.ipp:102, elementary.ipp:1067, 1186,
    transform.ipp:427-447, 517 *)
Definition oargs (nd : onode) : list gexpr :=
  match nd with
  | OFit a watch => [a; watch]
  | OClip _ a => [gnorm N a; a]
  | OCond _ a b => [a; b]
  | OArgMax _ a => [a]
  | OCorr _ _ a f => [a; f]
  end.

Fixpoint all_ok {A} (l : list (res A)) : res (list A) :=
  match l with [] => Ok [] | r :: rest => x <- r ;; xs <- all_ok rest ;; Ok (x :: xs) end.

(** the value of the node: the forward functions of CseModel.sem, cited there. The name of a
    comparison does not matter for its value. *)
Definition ovalue (env : nat -> tens T) (nd : onode) : res (tens T) :=
  ts <- all_ok (map (geval env) (oargs nd)) ;;
  sem N fresh strassen_on of_nat
    (match nd with
     | OFit _ _ => KFit
     | OClip cap _ => KClipNorm cap
     | OCond compare _ _ => KCond "" compare
     | OArgMax axis _ => KArgMax axis
     | OCorr d1 d2 _ _ => KCorr d1 d2
     end) ts.

(** the only element of a constant of one element (expose of it, at 0) *)
Definition only (g : gexpr) : option T :=
  match g with GConst (s, l) => if n_elems s =? 1 then nth_error l 0 else None | _ => None end.

(** The backward functions, given the gradients [gs] of the arguments. A result may use one new
    node that GroupModel has no expression for: it is GVar k, with the value given second (the
    node's forward function runs when it is made). In the cases marked "not modelled" the new
    node carries grouping metadata. *)
Definition oback (env : nat -> tens T) (k : nat) (nd : onode) (gs : list gexpr) : res (gexpr * option (tens T)) :=
  match nd with
  | OFit _ _ => g <- rd gs 0 ;; Ok (g, None) (* transform.ipp:129-133 *)
  | OClip cap a => (* elementary.ipp:1081-1086: the first argument of the node is l2norm(a) *)
    g <- rd gs 0 ;;
    let n := gnorm N a in
    match grouping n with
    | Some _ => UB (* not modelled *)
    | None =>
      v <- ovalue env (OClip cap n) ;;
      x <- gbinary N same BMul g (GVar k) ;;
      Ok (x, Some v)
    end
  | OCond compare _ _ => (* elementary.ipp:1194-1201, 1162-1181 *)
    ga <- rd gs 0 ;; gb <- rd gs 1 ;;
    match only ga with
    | Some x => g <- gunary N (UCondL x compare) gb ;; Ok (g, None)
    | None =>
      match only gb with
      | Some y => g <- gunary N (UCondR compare y) ga ;; Ok (g, None)
      | None =>
        match grouping ga with
        | Some _ => UB (* not modelled *)
        | None => v <- ovalue env (OCond compare ga gb) ;; Ok (GVar k, Some v)
        end
      end
    end
  | OArgMax _ _ => Throw (* transform.ipp:441-446 *)
  | OCorr _ _ _ _ => Throw (* transform.ipp:552-556 *)
  end.

(** base_immutable.ipp:61-67, 219-232 and immutable.ipp:174-193: the value of the node that
    derive returns for the variable [w]; as GroupModel.ginfo and gderive_of. [k] is a number
    no variable has. *)
Definition oderive (env : nat -> tens T) (k w : nat) (nd : onode) : res (tens T) :=
  let infos := map (ginfo env w) (oargs nd) in
  let j := fold_left (fun acc i => ginherit same acc (snd i)) infos None in
  if existsb (gleaf w) (oargs nd) then
    gs <- all_ok (map (fun i => if gterminal j then gderive_of N fresh strassen_on of_nat same env i else fst i) infos) ;;
    r <- oback env k nd gs ;;
    let env' := match snd r with Some t => fun v => if v =? k then t else env v | None => env end in
    g <- (match j with Some l => gjac_call N fresh strassen_on of_nat same env' (gj_list l) (fst r) | None => Ok (fst r) end) ;;
    geval env' g
  else
    g <- (match j with Some l => gjac_call N fresh strassen_on of_nat same env (gj_list l) (GConst (const_scalar (n_zero N))) | None => Ok (GConst (const_scalar (n_zero N))) end) ;;
    geval env g.
End Other.
