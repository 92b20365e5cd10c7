(** Generated by tools/genprops.py from SerialLaws.v: property statements only. *)
From Coq Require Import String.
From Verif Require Import Common ShapeModel ShapeSpec ShapeProofs FitModel TensorModel TensorSpec TensorProofs TensorDataLaws LeafModel LeafSpec LeafProofs LeafLaws SerialModel SerialSpec SerialProofs.
Local Open Scope list_scope.
From Verif Require Import SerialLaws.

(** Keys of saved nodes: two (label, position) pairs get the same key exactly if they are the
    same, whatever the labels, including labels containing colons and digits. *)
Theorem C35_keys_distinct :
  forall l i l' j, node_label l i = node_label l' j <-> l = l' /\ i = j.
Proof. exact C35_keys_distinct_lemma. Qed.
Print Assumptions C35_keys_distinct.

(** What write_inorder does, from every reachable state. A file that is there but does not
    parse is left alone and false is returned, and likewise if the file cannot be opened.
    Otherwise each node that has a value gets the entry of its position, with that shape and
    data; nodes without a value keep the entry an earlier save left there; the entries
    of other labels, of further positions and of other files are untouched. *)
Theorem C35_write :
  forall (T : Type) (zero junk : T) add sub eqb (W : lworld) fs nodes label f,
    reach zero junk add sub eqb W -> Forall (fun n => n < length (l_fs W)) nodes ->
    (corrupt fs f -> forall out, write_inorder W fs nodes label f out = Ok (fs, false)) /\
    (write_inorder W fs nodes label f WNotOpened = Ok (fs, false)) /\
    (~ corrupt fs f -> exists fs', write_inorder W fs nodes label f WDone = Ok (fs', true) /\
      ~ corrupt fs' f /\ (forall g, g <> f -> fs' g = fs g) /\
      (forall l i, l <> label \/ length nodes <= i -> entry fs' f l i = entry fs f l i) /\
      (forall i node s d, nth_error nodes i = Some node -> observe W node = Ok (Some (s, d)) ->
         exists p, entry fs' f label i = Some p /\ p_alloc p = s /\ p_data p = d) /\
      (forall i node, nth_error nodes i = Some node -> observe W node = Ok None -> entry fs' f label i = entry fs f label i)).
Proof. exact C35_write_lemma. Qed.
Print Assumptions C35_write.

(** What read_inorder does with a file whose entries are messages a node can be loaded from:
    each node with an entry has that value afterwards, exactly the nodes without one are
    reported, and these and all other nodes keep their value. *)
Theorem C35_read :
  forall (T : Type) (zero junk : T) add sub eqb (W : lworld) fs nodes label f,
    reach zero junk add sub eqb W -> (exists r, fs f = FRepo r) -> NoDup nodes -> Forall (is_leaf W) nodes ->
    (forall i p, i < length nodes -> entry fs f label i = Some p -> readable p) ->
    exists W' unfound, read_inorder zero junk W fs nodes label f = Ok (W', unfound, true) /\
      (forall i node p, nth_error nodes i = Some node -> entry fs f label i = Some p -> observe W' node = Ok (Some (p_alloc p, p_data p))) /\
      (forall x, In x unfound <-> exists i, nth_error nodes i = Some x /\ entry fs f label i = None) /\
      (forall x, x < length (l_fs W) -> (forall i, nth_error nodes i = Some x -> entry fs f label i = None) -> observe W' x = observe W x).
Proof. exact C35_read_lemma. Qed.
Print Assumptions C35_read.

(** A missing or unparsable file: false, no node changes, and no node is removed from the
    vector. *)
Theorem C35_read_no_file :
  forall (T : Type) (zero junk : T) (W : @lworld T) fs nodes label f,
    (fs f = FAbsent \/ corrupt fs f) -> read_inorder zero junk W fs nodes label f = Ok (W, nodes, false).
Proof. exact C35_read_no_file_lemma. Qed.
Print Assumptions C35_read_no_file.

(** Saving in one program state and loading, possibly in another program run, into as many
    leaf nodes under the same label restores every saved node's value in order; exactly the
    nodes standing where an uninitialised one was saved are reported, and these and all nodes
    outside the list keep their value. *)
Theorem C35_round_trip :
  forall (T : Type) (zero junk : T) add sub eqb (W W1 : lworld) fs fs' nodes nodes1 label f,
    reach zero junk add sub eqb W -> Forall (fun n => n < length (l_fs W)) nodes ->
    write_inorder W fs nodes label f WDone = Ok (fs', true) ->
    (forall i node, nth_error nodes i = Some node ->
       (exists s d, savable W node s d) \/ (observe W node = Ok None /\ entry fs f label i = None)) ->
    reach zero junk add sub eqb W1 -> length nodes1 = length nodes -> NoDup nodes1 -> Forall (is_leaf W1) nodes1 ->
    exists W2 unfound, read_inorder zero junk W1 fs' nodes1 label f = Ok (W2, unfound, true) /\
      (forall i node node1 s d, nth_error nodes i = Some node -> nth_error nodes1 i = Some node1 ->
         observe W node = Ok (Some (s, d)) -> observe W2 node1 = Ok (Some (s, d))) /\
      (forall x, In x unfound <-> exists i node, nth_error nodes1 i = Some x /\ nth_error nodes i = Some node /\ observe W node = Ok None) /\
      (forall x, x < length (l_fs W1) -> ~ In x nodes1 \/ In x unfound -> observe W2 x = observe W1 x).
Proof. exact C35_round_trip_lemma. Qed.
Print Assumptions C35_round_trip.

(** The save is not atomic: a write that fails, or a crash, after the file was opened can
    leave a file that parses as an empty repository, so that what other labels had saved
    there is gone and loading reports success. *)
Theorem C35_interrupted_save_refuted :
  forall (T : Type) (zero junk : T) add sub eqb (W : lworld) fs nodes label f,
    reach zero junk add sub eqb W -> Forall (fun n => n < length (l_fs W)) nodes -> ~ corrupt fs f ->
    exists fs', write_inorder W fs nodes label f (WCut (FRepo [])) = Ok (fs', false) /\
      (forall l i, entry fs' f l i = None) /\
      (forall (W1 : @lworld T) nodes1 l, exists u, read_inorder zero junk W1 fs' nodes1 l f = Ok (W1, u, true)).
Proof. exact C35_interrupted_save_refuted_lemma. Qed.
Print Assumptions C35_interrupted_save_refuted.

(** A node whose declared shape and value differ in rank (constant or placeholder made with
    an unspecified shape) is saved, but loading the file aborts. *)
Theorem C35_rank_change_refuted :
  exists (W : @lworld nat) fs',
    lrun 0 0 Nat.add Nat.sub Nat.eqb linit [LVar [] (Some (fun k => k)); LInitShape 0 [2]] = Ok W /\
    observe W 0 = Ok (Some ([2], [0; 1])) /\
    write_inorder W (fun _ => FAbsent) [0] "a"%string "f"%string WDone = Ok (fs', true) /\
    read_inorder 0 0 W fs' [0] "a"%string "f"%string = Abort.
Proof. exact C35_rank_change_refuted_lemma. Qed.
Print Assumptions C35_rank_change_refuted.

(** Loading does not check the node it loads into: a node of another shape takes the saved
    shape, and a constant is overwritten. *)
Theorem C35_load_ignores_target_refuted :
  exists (W W' : @lworld nat) fs',
    lrun 0 0 Nat.add Nat.sub Nat.eqb linit [LVar [2] (Some (fun k => k)); LInit 0; LVar [3] (Some (fun k => 7)); LInit 1; LConst [5] [1]] = Ok W /\
    is_var W 1 /\ observe W 1 = Ok (Some ([3], [7; 7; 7])) /\ is_const W 2 /\ observe W 2 = Ok (Some ([1], [5])) /\
    write_inorder W (fun _ => FAbsent) [0; 0] "a"%string "f"%string WDone = Ok (fs', true) /\
    read_inorder 0 0 W fs' [1; 2] "a"%string "f"%string = Ok (W', [], true) /\
    is_const W' 2 /\ observe W' 1 = Ok (Some ([2], [0; 1])) /\ observe W' 2 = Ok (Some ([2], [0; 1])).
Proof. exact C35_load_ignores_target_refuted_lemma. Qed.
Print Assumptions C35_load_ignores_target_refuted.

(** A model saved and initialised from the file, in the same run or another, under the same
    scope: all its variables have their saved values, other nodes are untouched. *)
Theorem C35_model_round_trip :
  forall (T : Type) (zero junk : T) add sub eqb (W W1 : lworld) fs fs' vars vars1 scope scope1 f ws rs,
    reach zero junk add sub eqb W -> (forall v, In v vars -> exists s d, savable W v s d) ->
    compound_save W fs vars scope f ws WDone = Ok (fs', true) ->
    reach zero junk add sub eqb W1 -> length vars1 = length vars -> NoDup vars1 -> Forall (is_leaf W1) vars1 ->
    scope_used scope ws = scope_used scope1 rs ->
    exists W2, compound_initialize zero junk add sub eqb W1 fs' vars1 scope1 f rs = Ok W2 /\
      (forall i v v1 s d, nth_error vars i = Some v -> nth_error vars1 i = Some v1 ->
         observe W v = Ok (Some (s, d)) -> observe W2 v1 = Ok (Some (s, d))) /\
      (forall x, x < length (l_fs W1) -> ~ In x vars1 -> observe W2 x = observe W1 x).
Proof. exact C35_model_round_trip_lemma. Qed.
Print Assumptions C35_model_round_trip.

(** If the file is missing or unparsable, or lacks an entry for some variable, then every
    variable, also those whose entry was found, ends up with the values of its initialiser
    (file entries of the variables' own shapes). *)
Theorem C35_model_initialize_incomplete_file :
  forall (T : Type) (zero junk : T) add sub eqb (W : lworld) fs vars scope f rs (sh : nat -> shape) (ini : nat -> nat -> T),
    reach zero junk add sub eqb W -> NoDup vars ->
    (forall v, In v vars -> has_kind W v (KVar (Some (ini v))) /\ shape_of W v (sh v) /\ defined (sh v)) ->
    (forall i v p, nth_error vars i = Some v -> entry fs f (scope_used scope rs) i = Some p -> readable p /\ p_alloc p = sh v) ->
    (fs f = FAbsent \/ corrupt fs f \/ exists i, i < length vars /\ entry fs f (scope_used scope rs) i = None) ->
    exists W', compound_initialize zero junk add sub eqb W fs vars scope f rs = Ok W' /\
      (forall v, In v vars -> observe W' v = Ok (Some (sh v, map (ini v) (seq 0 (n_elems (sh v)))))) /\
      (forall x, x < length (l_fs W) -> ~ In x vars -> observe W' x = observe W x).
Proof. exact C35_model_initialize_incomplete_file_lemma. Qed.
Print Assumptions C35_model_initialize_incomplete_file.

(** A dq_net saved and initialised from the file under the same non-empty scope: both its
    networks have their saved values; the entries of the two never collide. *)
Theorem C35_dq_round_trip :
  forall (T : Type) (zero junk : T) add sub eqb (W W1 : lworld) fs fs' src tgt src1 tgt1 brain brain1 scope scope1 f ws rs,
    reach zero junk add sub eqb W -> (forall v, In v (src ++ tgt) -> exists s d, savable W v s d) ->
    dq_save W fs src tgt brain scope f ws WDone WDone = Ok (fs', true) ->
    reach zero junk add sub eqb W1 -> length src1 = length src -> length tgt1 = length tgt ->
    NoDup (src1 ++ tgt1) -> Forall (is_leaf W1) (src1 ++ tgt1) ->
    scope_used scope ws = scope_used scope1 rs -> scope_used scope ws <> ""%string ->
    exists W2, dq_initialize zero junk add sub eqb W1 fs' src1 tgt1 brain1 scope1 f rs = Ok W2 /\
      (forall i v v1 s d, nth_error (src ++ tgt) i = Some v -> nth_error (src1 ++ tgt1) i = Some v1 ->
         observe W v = Ok (Some (s, d)) -> observe W2 v1 = Ok (Some (s, d))) /\
      (forall x, x < length (l_fs W1) -> ~ In x (src1 ++ tgt1) -> observe W2 x = observe W1 x).
Proof. exact C35_dq_round_trip_lemma. Qed.
Print Assumptions C35_dq_round_trip.

(** The hypotheses hold of, and the results are as stated on, a concrete history: three
    variables, one not initialised, saved under a label containing a colon next to an older
    entry, then loaded in a program with other values. *)
Example C35_nonvacuous :
  exists (W W1 W2 : @lworld nat) fs',
    reach 0 0 Nat.add Nat.sub Nat.eqb W /\ reach 0 0 Nat.add Nat.sub Nat.eqb W1 /\
    savable W 0 [2] [3; 4] /\ observe W 1 = Ok None /\ savable W 2 [2; 2] [0; 1; 2; 3] /\ ~ corrupt (fun _ => FRepo [("a:1", mkP [9] [1] [1])])%string "f"%string /\
    write_inorder W (fun _ => FRepo [("a:1", mkP [9] [1] [1])])%string [0; 1; 2] "a:1"%string "f"%string WDone = Ok (fs', true) /\
    entry fs' "f"%string "a"%string 1 = Some (mkP [9] [1] [1]) /\
    Forall (is_leaf W1) [2; 0; 1] /\ observe W1 1 = Ok (Some ([2; 2], [7; 7; 7; 7])) /\
    read_inorder 0 0 W1 fs' [2; 0; 1] "a:1"%string "f"%string = Ok (W2, [0], true) /\
    observe W2 2 = Ok (Some ([2], [3; 4])) /\ observe W2 0 = Ok (Some ([1], [5])) /\ observe W2 1 = Ok (Some ([2; 2], [0; 1; 2; 3])).
Proof. exact C35_nonvacuous_lemma. Qed.
