(** Generated by tools/genprops.py from ConvLaws.v: property statements only. *)
From Coq Require Import String NArith.
From Verif Require Import Common ShapeModel ShapeSpec ShapeProofs TransformModel TransformSpec TransformProofs CrossCorrProofs TransformLaws ElemModel ElemProofs GradModel MlpModel ConvModel ConvSpec.
From Verif Require Import ConvLaws.

(** A new layer has a weight of shape [filter height, filter width, inputs, outputs], drawn
    uniformly from +-1/sqrt(height * width * inputs), and a zero bias of shape [outputs], both
    uninitialized and at new addresses. *)
Theorem C58_construct :
  forall (T : Type) (N : num T) (of_nat : nat -> T) fh fw n_in n_out scope (st : @cstore T),
    exists l st' w b, conv_new N of_nat fh fw n_in n_out scope st = (l, st') /\
      conv_variables l = [w; b] /\ w <> b /\ new_in st w /\ new_in st b /\ untouched [] st st' /\
      var_at st' w (mkVar (scope ++ "_weight")%string [fh; fw; n_in; n_out]
        (IUniform (n_div N (n_neg N (n_one N)) (n_sqrt N (of_nat (fh * fw * n_in)))) (n_div N (n_one N) (n_sqrt N (of_nat (fh * fw * n_in))))) None) /\
      var_at st' b (mkVar (scope ++ "_bias")%string [n_out] (IConst (n_zero N)) None).
Proof. exact C58_construct_lemma. Qed.
Print Assumptions C58_construct.

(** Cloning: the clone's two variables are new, hold the same shape, initializer and data as
    the original's, and are labelled with the clone's scope; nothing else changes. *)
Theorem C58_clone :
  forall (T : Type) (l : conv_layer) scope (st : @cstore T) vw vb,
    var_at st (cv_w l) vw -> var_at st (cv_b l) vb ->
    exists l' st' w b, conv_clone l scope st = Ok (l', st') /\ conv_variables l' = [w; b] /\
      w <> b /\ new_in st w /\ new_in st b /\ untouched [] st st' /\
      cv_scope l' = (if String.eqb scope "" then cv_scope l ++ "_cpy" else scope)%string /\
      exists vw' vb', var_at st' w vw' /\ var_at st' b vb' /\ same_contents vw vw' /\ same_contents vb vb' /\
        v_label vw' = (cv_scope l' ++ "_weight")%string /\ v_label vb' = (cv_scope l' ++ "_bias")%string.
Proof. exact C58_clone_lemma. Qed.
Print Assumptions C58_clone.

(** Copy assignment: nothing for the same object; otherwise the target's variables are deleted
    and replaced by new copies of the source's, which keeps its own. The target keeps its scope
    and labels the copies with it. *)
Theorem C58_assign :
  forall (T : Type) (this other : conv_layer) (st : @cstore T) vw vb,
    conv_assign true this this st = Ok (this, st) /\
    (cv_w this <> cv_b this -> deletable st (cv_w this) -> deletable st (cv_b this) ->
     var_at st (cv_w other) vw -> var_at st (cv_b other) vb ->
     (forall p, In p (conv_variables other) -> ~ In p (conv_variables this)) ->
     exists l' st' w b, conv_assign false this other st = Ok (l', st') /\ conv_variables l' = [w; b] /\
      w <> b /\ new_in st w /\ new_in st b /\ untouched (conv_variables this) st st' /\
      (forall p, In p (conv_variables this) -> deleted st' p) /\ cv_scope l' = cv_scope this /\
      exists vw' vb', var_at st' w vw' /\ var_at st' b vb' /\ same_contents vw vw' /\ same_contents vb vb' /\
        v_label vw' = (cv_scope this ++ "_weight")%string /\ v_label vb' = (cv_scope this ++ "_bias")%string).
Proof. exact C58_assign_lemma. Qed.
Print Assumptions C58_assign.

(** Moving: the new layer has the scope and, in new variables, exactly the old variables
    (labels included); the old layer keeps two emptied variables, so that deleting both layers
    deletes four different objects and no address twice. *)
Theorem C58_move :
  forall (T : Type) (l : conv_layer) (st : @cstore T) vw vb,
    cv_w l <> cv_b l -> var_at st (cv_w l) vw -> var_at st (cv_b l) vb ->
    exists l' old st' w b, conv_move l st = Ok (l', old, st') /\ conv_variables l' = [w; b] /\ conv_variables old = conv_variables l /\
      w <> b /\ new_in st w /\ new_in st b /\ untouched (conv_variables l) st st' /\ cv_scope l' = cv_scope l /\
      var_at st' w vw /\ var_at st' b vb /\ (forall p, In p (conv_variables l) -> emptied st' p) /\
      exists st1 st2, conv_delete old st' = Ok st1 /\ conv_delete l' st1 = Ok st2 /\
        forall p, In p (conv_variables l') \/ In p (conv_variables l) -> deleted st2 p.
Proof. exact C58_move_lemma. Qed.
Print Assumptions C58_move.

(** Move assignment: nothing for the same object; otherwise the target's variables are
    deleted, the source's contents move into new variables of the target and the source keeps
    two emptied ones. Neither the target's scope nor the labels change. *)
Theorem C58_move_assign :
  forall (T : Type) (this other : conv_layer) (st : @cstore T) vw vb,
    conv_move_assign true this this st = Ok (this, st) /\
    (cv_w this <> cv_b this -> cv_w other <> cv_b other -> deletable st (cv_w this) -> deletable st (cv_b this) ->
     var_at st (cv_w other) vw -> var_at st (cv_b other) vb ->
     (forall p, In p (conv_variables other) -> ~ In p (conv_variables this)) ->
     exists l' st' w b, conv_move_assign false this other st = Ok (l', st') /\ conv_variables l' = [w; b] /\
      w <> b /\ new_in st w /\ new_in st b /\ untouched (conv_variables this ++ conv_variables other) st st' /\
      (forall p, In p (conv_variables this) -> deleted st' p) /\ (forall p, In p (conv_variables other) -> emptied st' p) /\
      cv_scope l' = cv_scope this /\ var_at st' w vw /\ var_at st' b vb).
Proof. exact C58_move_assign_lemma. Qed.
Print Assumptions C58_move_assign.

(** The value of conv2d never depends on the filter's data. *)
Theorem C58_conv2d_ignores_filter_refuted :
  forall (T : Type) (N : num T) fresh d1 d2 (a f1 f2 : tens T),
    fst f1 = fst f2 -> is_fully_defined (fst f1) = true -> length (snd f1) = n_elems (fst f1) -> length (snd f2) = n_elems (fst f2) ->
    d1 < length (fst f1) -> d2 < length (fst f1) ->
    conv2d_value N fresh d1 d2 a f1 = conv2d_value N fresh d1 d2 a f2.
Proof. exact C58_conv2d_ignores_filter_refuted_lemma. Qed.
Print Assumptions C58_conv2d_ignores_filter_refuted.

(** No call of the layer has a value: with an input more than one larger than the filter in
    height and width evaluating it reads outside the input, with an input exactly one larger it
    throws (the declared shape has a zero). *)
Theorem C58_call_refuted :
  forall (T : Type) (N : num T) fresh h w rest fh fw n_in n_out (x wdata bdata : list T),
    is_fully_defined (h :: w :: rest) = true -> is_fully_defined [fh; fw; n_in; n_out] = true ->
    length x = n_elems (h :: w :: rest) -> length wdata = n_elems [fh; fw; n_in; n_out] ->
    (N.of_nat h < 2 ^ 64)%N -> (N.of_nat w < 2 ^ 64)%N -> fh < h -> fw < w ->
    conv_value N fresh (h :: w :: rest, x) ([fh; fw; n_in; n_out], wdata) ([n_out], bdata) =
      (if (h =? fh + 1) || (w =? fw + 1) then Throw else UB).
Proof. exact C58_call_refuted_lemma. Qed.
Print Assumptions C58_call_refuted.

(** a layer, a clone, an assignment, a move and a call on a 5x5 image *)
Example C58_nonvacuous :
  let N := {| n_zero := 0; n_one := 1; n_two := 2; n_add := Nat.add; n_sub := Nat.sub; n_mul := Nat.mul; n_div := Nat.div; n_neg := fun x => x; n_abs := fun x => x;
     n_sin := fun x => x; n_cos := fun x => x; n_tan := fun x => x; n_exp := fun x => x; n_sqrt := Nat.sqrt; n_round := fun x => x; n_log := fun x => x; n_pow := Nat.pow;
     n_eqb := Nat.eqb; n_ltb := Nat.ltb |} in
  let '(l, st) := conv_new N (fun n => n) 2 2 1 3 "conv" [] in
  conv_variables l = [0; 1] /\
  (exists l' st', conv_clone l "" st = Ok (l', st') /\ conv_variables l' = [2; 3] /\ cv_scope l' = "conv_cpy"%string /\
    exists st'', conv_assign false l l' st' = Ok (mkConv "conv" 4 5, st'') /\ deleted st'' 0 /\ deleted st'' 1 /\ ~ deleted st'' 2) /\
  (exists l' old st', conv_move l st = Ok (l', old, st') /\ conv_variables l' = [2; 3] /\ emptied st' 0) /\
  conv_value N (fun _ => 0) ([5; 5], seq 0 25) ([2; 2; 1; 3], repeat 1 12) ([3], [0; 0; 0]) = UB /\
  conv_value N (fun _ => 0) ([3; 5], seq 0 15) ([2; 2; 1; 3], repeat 1 12) ([3], [0; 0; 0]) = Throw.
Proof. exact C58_nonvacuous_lemma. Qed.
