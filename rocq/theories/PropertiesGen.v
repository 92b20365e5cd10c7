(** Generated by tools/genprops.py from GenLaws.v: property statements only. *)
From Verif Require Import Common ShapeModel ShapeSpec ShapeProofs TensorModel TensorSpec TensorProofs ElemSpec GenModel GenSpec GenProofs.
From Verif Require Import GenLaws.

(** Every history of calls on generators does exactly what the specification says: it is
    undefined exactly when the specification is, and otherwise all generators show the
    status, shape and data of the specification and the same notifications were sent. *)
Theorem C54_behaviour :
  forall (T : Type) (zero junk : T) (draw : nat -> nat -> nat -> T) (es : list gop),
    match arun draw ainit es with
    | Some A => exists W, grun zero junk draw ginit es = Ok W /\ shows W A
    | None => grun zero junk draw ginit es = UB
    end.
Proof. exact C54_behaviour_lemma. Qed.
Print Assumptions C54_behaviour.

(** In every reachable state each living tensor and each living initializer belongs to
    exactly one living generator; when all generators are gone nothing is left. *)
Theorem C54_ownership :
  forall (T : Type) (zero junk : T) (draw : nat -> nat -> nat -> T) (es : list gop) (W : gworld),
    grun zero junk draw ginit es = Ok W ->
    (forall k t, alive (gw_w W) k t -> exists i g, gget W i = Ok g /\ g_data g = Some k) /\
    (forall k id, nth_error (gw_inits W) k = Some (Some id) -> exists i g, gget W i = Ok g /\ g_init g = Some k) /\
    (forall i i' g g' k, gget W i = Ok g -> gget W i' = Ok g' -> g_data g = Some k -> g_data g' = Some k -> i = i') /\
    (forall i i' g g' k, gget W i = Ok g -> gget W i' = Ok g' -> g_init g = Some k -> g_init g' = Some k -> i = i') /\
    ((forall i g, gget W i <> Ok g) ->
       all_destroyed (gw_w W) /\ (forall p b, ~ live (gw_w W) p b) /\ (forall k id, nth_error (gw_inits W) k <> Some (Some id))).
Proof. exact C54_ownership_lemma. Qed.
Print Assumptions C54_ownership.

(** An update fills a generator when it holds nothing yet or its dependency has a fully
    defined shape of another layout: the generator then has the dependency's shape, the
    elements are those of one run of its initializer, and its observers are notified. *)
Theorem C54_update_fills :
  forall (T : Type) (zero junk : T) (draw : nat -> nat -> nat -> T) (es : list gop) (W : gworld) (i j : nat) (g : gen) (s s0 : shape) (b : bool),
    grun zero junk draw ginit es = Ok W -> gget W i = Ok g -> g_dep g = Some j -> nth_error (gw_deps W) j = Some (s, true) -> defined s ->
    good_status W i = Ok b -> gshape W i = Ok s0 -> (b = false \/ ~ same_layout s0 s) ->
    exists W' id, gstep zero junk draw W (EUpdate i) = Ok W' /\
      good_status W' i = Ok true /\ gshape W' i = Ok s /\
      geval W' i = Ok (Some (Ok (map (draw id (gw_calls W)) (seq 0 (n_elems s))))) /\ gw_log W' = gw_log W ++ [i].
Proof. exact C54_update_fills_lemma. Qed.
Print Assumptions C54_update_fills.

(** Nothing else does: whatever happens to its dependency or to other generators, a
    generator keeps its status, shape and elements; only updates that find the dependency
    in a fully defined shape of another layout change them. *)
Theorem C54_stable :
  forall (T : Type) (zero junk : T) (draw : nat -> nat -> nat -> T) (es : list gop) (W W' : gworld) (e : gop) (i : nat) (g : gen),
    grun zero junk draw ginit es = Ok W -> gstep zero junk draw W e = Ok W' -> gget W i = Ok g -> ~ affects W e i ->
    good_status W' i = good_status W i /\ gshape W' i = gshape W i /\ geval W' i = geval W i.
Proof. exact C54_stable_lemma. Qed.
Print Assumptions C54_stable.

(** The generator's shape is not always the shape of its dependency, not even right after a
    successful update: another rank with the same layout is ignored, and so is a dependency
    that went bad. *)
Theorem C54_follows_shape_refuted :
  let draw := fun id n k => id + 10 * n + k in
  exists W, grun 0 0 draw ginit [EDep [3] true; EGet 0 5; ESet 0 [3; 1] true; EUpdate 0; EDep [2] true; EGet 1 6; ESet 1 [4] false; EUpdate 1] = Ok W /\
    gw_deps W = [([3; 1], true); ([4], false)] /\ gshape W 0 = Ok [3] /\ gshape W 1 = Ok [2] /\ good_status W 1 = Ok true.
Proof. exact C54_follows_shape_refuted_lemma. Qed.
Print Assumptions C54_follows_shape_refuted.

(** A generator that was moved from claims good status but has no data, and updating it is
    undefined. *)
Theorem C54_moved_from_refuted :
  forall (T : Type) (zero junk : T) (draw : nat -> nat -> nat -> T) (es : list gop) (W : gworld) (i : nat) (d : list T),
    grun zero junk draw ginit es = Ok W -> geval W i = Ok (Some (Ok d)) ->
    exists W', gstep zero junk draw W (EMove i) = Ok W' /\ good_status W' i = Ok true /\ gshape W' i = Ok [] /\ geval W' i = Ok (Some Abort) /\
      geval W' (length (gw_gens W)) = Ok (Some (Ok d)) /\ gstep zero junk draw W' (EUpdate i) = UB.
Proof. exact C54_moved_from_refuted_lemma. Qed.
Print Assumptions C54_moved_from_refuted.

(** A history with two fills, a clone that keeps the old data, a move and deletions. *)
Example C54_nonvacuous :
  let draw := fun id n k => id + 10 * n + k in
  let es := [EDep [2; 2] true; EGet 0 5; EClone 0; ESet 0 [3] true; EUpdate 0; EMove 1; EAssign 0 2; EDelete 1] in
  exists W, grun 0 0 draw ginit es = Ok W /\ geval W 0 = Ok (Some (Ok [5; 6; 7; 8])) /\ geval W 2 = Ok (Some (Ok [5; 6; 7; 8])) /\
    gshape W 0 = Ok [2; 2] /\ gget W 1 = UB /\ gw_log W = [0; 0; 0] /\
    affects W (EUpdate 2) 2 /\ ~ affects W (EUpdate 0) 2 /\ exists W', gstep 0 0 draw W (EUpdate 2) = Ok W' /\ geval W' 2 = Ok (Some (Ok [25; 26; 27])).
Proof. exact C54_nonvacuous_lemma. Qed.
