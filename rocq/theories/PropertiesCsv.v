(** Generated by tools/genprops.py from CsvLaws.v: property statements only. *)
From Coq Require Import String Ascii DecimalString.
From Coq Require Import DecimalNat Permutation.
From Verif Require Import Common RecordModel RecordLaws CsvModel CsvSpec.
Local Open Scope string_scope.
From Verif Require Import CsvLaws.

(** The file lists exactly the selected edges, one line each: a reader of the CSV text gets for
    every edge the two node numbers with label and shape, and the argument index. The number of a
    node is its position in the order of first mention, so it is the same in all lines, different
    nodes have different numbers, and the numbers are those below the number of nodes. *)
Theorem C56_file_lists_graph : forall (a : about) (display : bool) (consider : option nat) (it : adj),
  (forall o s i, In (o, s, i) (edges it) -> is_node a s = true -> is_conn a o = true) ->
  (forall o s i, In (o, s, i) (selected a consider it) -> o <> s /\ plain (label a o) /\ plain (label a s)) ->
  let num n := position n (mentioned (selected a consider it)) in
  (exists text, to_csv a false display consider it = Ok text /\
    read_numbers text = Some (map (fun e => let '(o, s, i) := e in
      ((num o, label a o ++ shape_suffix display a o), (num s, label a s ++ shape_suffix display a s), i)) (selected a consider it))) /\
  forall o s i, In (o, s, i) (selected a consider it) ->
    num o < length (mentioned (selected a consider it)) /\ num s < length (mentioned (selected a consider it)) /\
    forall o' s' i', In (o', s', i') (selected a consider it) ->
      (num o = num o' <-> o = o') /\ (num o = num s' <-> o = s') /\ (num s = num s' <-> s = s').
Proof. exact C56_file_lists_graph_lemma. Qed.
Print Assumptions C56_file_lists_graph.

(** With setVerbose(true) every line has the names and shapes of the two nodes and the index; *)
Theorem C56_verbose : forall (a : about) (display : bool) (consider : option nat) (it : adj),
  (forall o s i, In (o, s, i) (edges it) -> is_node a s = true -> is_conn a o = true) ->
  (forall o s i, In (o, s, i) (selected a consider it) ->
     plain (label a o) /\ plain (label a s) /\ plain (uid a o) /\ plain (uid a s)) ->
  exists text, to_csv a true display consider it = Ok text /\
    read_names text = Some (map (fun e => let '(o, s, i) := e in
      (get_name a o ++ shape_suffix display a o, get_name a s ++ shape_suffix display a s, i)) (selected a consider it)).
Proof. exact C56_verbose_lemma. Qed.
Print Assumptions C56_verbose.

(** and names are different for nodes whose uids are different and contain no colon. *)
Theorem C56_names_distinct : forall (a : about) (m n : nat),
  ~ In ":"%char (list_ascii_of_string (uid a m)) -> ~ In ":"%char (list_ascii_of_string (uid a n)) ->
  uid a m <> uid a n -> get_name a m <> get_name a n.
Proof. exact C56_names_distinct_lemma. Qed.
Print Assumptions C56_names_distinct.

(** Writing is undefined exactly if some recorded observer of a node of the type is not a
    connector of the type. *)
Theorem C56_undefined : forall (a : about) (verbose display : bool) (consider : option nat) (it : adj),
  to_csv a verbose display consider it = UB <-> exists o s i, In (o, s, i) (edges it) /\ is_node a s = true /\ is_conn a o = false.
Proof. exact C56_undefined_lemma. Qed.
Print Assumptions C56_undefined.

(** Together with the recorder (C47): after any history of attaching, detaching and destroying
    subjects, in whatever order the recorder is iterated, the file has exactly one row for every
    (observer, subject, index) then attached whose observer is recordable and whose subject is a
    node of the type, and no other rows. *)
Theorem C56_current_graph : forall (recordable : nat -> bool) (ops : list sub_op) (a : about) (display : bool) (it : adj),
  let w := fold_left (sub_step recordable) ops (mkwatch [] []) in
  Permutation (edges it) (edges (rec w)) ->
  (forall o s i, In (s, o, i) (aud w) -> is_conn a o = true /\ o <> s) -> (forall n, plain (label a n)) ->
  exists text rows num, to_csv a false display None it = Ok text /\ read_numbers text = Some rows /\ NoDup rows /\
    (forall r, In r rows <-> exists o s i, In (s, o, i) (aud w) /\ recordable o = true /\ is_node a s = true /\
       r = ((num o, label a o ++ shape_suffix display a o), (num s, label a s ++ shape_suffix display a s), i)) /\
    (let in_file n := exists o s i, In (s, o, i) (aud w) /\ recordable o = true /\ is_node a s = true /\ (n = o \/ n = s) in
     forall m n, in_file m -> in_file n -> num m = num n -> m = n).
Proof. exact C56_current_graph_lemma. Qed.
Print Assumptions C56_current_graph.

(** Finding: a label containing a comma (labels are chosen by the user) makes a line with four
    cells. *)
Theorem C56_comma_refuted : exists a it text,
  to_csv a false false None it = Ok text /\ text = "[0]w,b,[1]x,0" ++ newline /\ read_names text = None.
Proof. exact C56_comma_refuted_lemma. Qed.
Print Assumptions C56_comma_refuted.

(** Finding: a node that observes itself gets two numbers. *)
Theorem C56_self_loop_refuted : exists a it text,
  (forall n, plain (label a n)) /\ to_csv a false false None it = Ok text /\ edges it = [(1, 1, 0); (1, 1, 1)] /\
  read_numbers text = Some [((0, "x"), (1, "x"), 0); ((1, "x"), (1, "x"), 1)].
Proof. exact C56_self_loop_refuted_lemma. Qed.
Print Assumptions C56_self_loop_refuted.

(** A graph with a shared node, a node of another type and two graphs. *)
Example C56_nonvacuous : exists a it text,
  (forall n, plain (label a n)) /\
  (forall o s i, In (o, s, i) (edges it) -> is_node a s = true -> is_conn a o = true) /\
  (forall o s i, In (o, s, i) (selected a (Some 7) it) -> o <> s) /\
  length (edges it) = 5 /\ selected a (Some 7) it = [(3, 1, 0); (3, 2, 1); (4, 3, 0)] /\
  to_csv a false true (Some 7) it = Ok text /\
  text = "[0]add(2 3 ),[1]x(undefined ),0" ++ newline ++ "[0]add(2 3 ),[2]x(undefined ),1" ++ newline ++ "[3]x(undefined ),[0]add(2 3 ),0" ++ newline.
Proof. exact C56_nonvacuous_lemma. Qed.

(** and one of the composed theorem: a node with two arguments that are the same leaf. *)
Example C56_current_nonvacuous : exists (recordable : nat -> bool) ops (a : about),
  let w := fold_left (sub_step recordable) ops (mkwatch [] []) in
  aud w = [(2, 3, 0); (1, 3, 1); (1, 3, 0)] /\ edges (rec w) = [(3, 1, 1); (3, 1, 0); (3, 2, 0)] /\
  (forall o s i, In (s, o, i) (aud w) -> is_conn a o = true /\ o <> s) /\ (forall n, plain (label a n)).
Proof. exact C56_current_nonvacuous_lemma. Qed.
