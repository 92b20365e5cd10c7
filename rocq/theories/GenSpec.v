(** Specification of generators: what each of them holds, without any memory. *)
From Verif Require Import Common ShapeModel ShapeSpec ElemSpec.

Section Spec.
Context {T : Type} (draw : nat -> nat -> nat -> T).

(** nothing yet; a shape and its elements; or emptied by a move *)
Inductive aval := Unset | Val (s : shape) (d : list T) | Emptied.
(** the node it depends on, its initializer, its contents *)
Record agen := mkA { a_dep : option nat; a_init : nat; a_val : aval }.
Record astate := mkAS { a_gens : list (option agen); a_deps : list (shape * bool); a_calls : nat; a_log : list nat }.

Definition layout_eqb (a b : shape) : bool :=
  if list_eq_dec Nat.eq_dec a b then true
  else negb (length a =? length b) && (if list_eq_dec Nat.eq_dec (unpad a) (unpad b) then true else false).

(** the elements the [n]-th fill writes with initializer [id] for a shape *)
Definition fresh_data (id n : nat) (s : shape) : list T := map (draw id n) (seq 0 (n_elems s)).

(** does an update of a generator holding [v] fill it, given its dependency *)
Definition refills (v : aval) (d : shape * bool) : bool :=
  snd d && is_fully_defined (fst d) &&
  match v with Val s _ => negb (layout_eqb s (fst d)) | _ => true end.

Definition aget (A : astate) (i : nat) : option agen :=
  match nth_error (a_gens A) i with Some (Some a) => Some a | _ => None end.

Definition aset (A : astate) (i : nat) (a : option agen) : astate :=
  mkAS (set_nth i a (a_gens A)) (a_deps A) (a_calls A) (a_log A).
Definition anew (A : astate) (a : agen) : astate :=
  mkAS (a_gens A ++ [Some a]) (a_deps A) (a_calls A) (a_log A).
Definition anotify (A : astate) (i : nat) : astate := mkAS (a_gens A) (a_deps A) (a_calls A) (a_log A ++ [i]).
Definition acount (A : astate) : astate := mkAS (a_gens A) (a_deps A) (S (a_calls A)) (a_log A).

(** an update: None when it is undefined behaviour *)
Definition aupdate (A : astate) (i : nat) : option astate :=
  match aget A i with
  | Some (mkA (Some j) id v) =>
    match nth_error (a_deps A) j with
    | Some d =>
      if refills v d
      then Some (anotify (acount (aset A i (Some (mkA (Some j) id (Val (fst d) (fresh_data id (a_calls A) (fst d))))))) i)
      else Some A
    | None => None
    end
  | _ => None
  end.

(** what is left of a generator that was moved *)
Definition remains (a : agen) : agen :=
  mkA None (a_init a) (match a_val a with Unset => Unset | _ => Emptied end).

End Spec.
Arguments Unset {T}. Arguments Val {T}. Arguments Emptied {T}. Arguments mkA {T}. Arguments mkAS {T}.
Arguments a_dep {T}. Arguments a_init {T}. Arguments a_val {T}. Arguments a_gens {T}. Arguments a_deps {T}. Arguments a_calls {T}. Arguments a_log {T}.

From Verif Require Import GenModel.

Section Step.
Context {T : Type} (draw : nat -> nat -> nat -> T).

(** the meaning of each call; None is undefined behaviour *)
Definition astep (A : @astate T) (e : gop) : option astate :=
  match e with
  | EDep s good => Some (mkAS (a_gens A) (a_deps A ++ [(s, good)]) (a_calls A) (a_log A))
  | ESet j s good =>
    if j <? length (a_deps A) then Some (mkAS (a_gens A) (set_nth j (s, good) (a_deps A)) (a_calls A) (a_log A)) else None
  | EGet j id =>
    if j <? length (a_deps A) then aupdate draw (anew A (mkA (Some j) id Unset)) (length (a_gens A)) else None
  | EUpdate i => aupdate draw A i
  | EClone i => match aget A i with Some a => Some (anew A a) | None => None end
  | EMove i => match aget A i with Some a => Some (anew (aset A i (Some (remains a))) a) | None => None end
  | EAssign i k =>
    match aget A i, aget A k with
    | Some _, Some a => Some (if i =? k then A else anotify (aset A i (Some a)) i)
    | _, _ => None
    end
  | EMoveAssign i k =>
    match aget A i, aget A k with
    | Some _, Some a => Some (if i =? k then A else anotify (aset (aset A i (Some a)) k (Some (remains a))) i)
    | _, _ => None
    end
  | EDelete i => match aget A i with Some _ => Some (aset A i None) | None => None end
  end.

Fixpoint arun (A : astate) (es : list gop) : option astate :=
  match es with
  | [] => Some A
  | e :: es => match astep A e with Some A' => arun A' es | None => None end
  end.

Definition ainit : @astate T := mkAS [] [] 0 [].

(** what a client sees *)
Definition a_good (v : @aval T) : bool := match v with Unset => false | _ => true end.
Definition a_shape (v : @aval T) : shape := match v with Val s _ => s | _ => [] end.
Definition a_eval (v : @aval T) : option (res (list T)) :=
  match v with Unset => None | Val _ d => Some (Ok d) | Emptied => Some Abort end.

(** the concrete objects show exactly what the specification holds *)
Definition shows (W : @gworld T) (A : astate) : Prop :=
  gw_log W = a_log A /\ gw_deps W = a_deps A /\ length (gw_gens W) = length (a_gens A) /\
  forall i, match aget A i with
            | Some a => good_status W i = Ok (a_good (a_val a)) /\ gshape W i = Ok (a_shape (a_val a)) /\ geval W i = Ok (a_eval (a_val a))
            | None => gget W i = UB
            end.
End Step.
