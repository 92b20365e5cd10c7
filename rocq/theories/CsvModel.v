(** Model of csv_record::to_csv (app/tenncor/include/edgeinfo/csv_record.hpp): the text file
    written from the recorded edges (RecordModel.v).
    Simplifications: nodes are numbers, and what to_csv asks them is given by functions; the
    file can be opened and written; the iterators oit and sit stay usable when num_corres grows
    (the standard only guarantees this for references: line 84 may use an iterator invalidated
    by line 71). *)
From Coq Require Import String Ascii DecimalString.
From Verif Require Import Common RecordModel.
Local Open Scope string_scope.

(** what to_csv<T> asks about a node: is it an inode<T> (dynamic_cast of line 41), an
    iconnector<T> (assumed by the static_cast of line 49), inode.ipp:52-61 get_label and
    get_uid, get_shape, and its graph manager *)
Record about := mkabout { is_node : nat -> bool; is_conn : nat -> bool; label : nat -> string; uid : nat -> string;
  shape_of : nat -> list nat; graph : nat -> nat }.

Definition dec (n : nat) : string := NilZero.string_of_uint (Nat.to_uint n).

(** tensorshape.cpp:315-329 print_shape *)
Definition print_shape (s : list nat) : string :=
  match s with
  | [] => "undefined "
  | _ => fold_right (fun d r => dec d ++ " " ++ r) "" s
  end.

(** inode.ipp:57-61 get_name *)
Definition get_name (a : about) (n : nat) : string := "<" ++ label a n ++ ":" ++ uid a n ++ ">".

(** num_corres: newest binding first *)
Fixpoint nfind (c : list (nat * nat)) (n : nat) : option nat :=
  match c with [] => None | (k, v) :: c' => if (k =? n)%nat then Some v else nfind c' n end.

(** csv_record.hpp:65-85: num_corres and num_des afterwards, obidx and sbidx *)
Definition number (c : list (nat * nat)) (m obs sub : nat) : list (nat * nat) * nat * nat * nat :=
  let oit := nfind c obs in
  let sit := nfind c sub in
  let '(c, m, ob) := match oit with None => ((obs, m) :: c, S m, m) | Some k => (c, m, k) end in
  let '(c, m, sb) := match sit with None => ((sub, m) :: c, S m, m) | Some k => (c, m, k) end in
  (c, m, ob, sb).

(** csv_record.hpp:90-98 *)
Definition shape_suffix (display : bool) (a : about) (n : nat) : string :=
  if display then "(" ++ print_shape (shape_of a n) ++ ")" else "".

Definition newline : string := String (ascii_of_nat 10) "".

(** csv_record.hpp:47-101: one observer of [sub]. The state is the text, num_corres and num_des *)
Definition csv_edge (a : about) (verbose display : bool) (consider : option nat) (sub : nat)
    (st : string * list (nat * nat) * nat) (info : nat * nat) : res (string * list (nat * nat) * nat) :=
  let '(out, c, m) := st in
  let '(obs, idx) := info in
  if negb (is_conn a obs) then UB
  else if match consider with Some g => negb (graph a obs =? g)%nat | None => false end then Ok st
  else
    let '(c, m, oname, sname) :=
      if verbose then (c, m, get_name a obs, get_name a sub)
      else let '(c, m, ob, sb) := number c m obs sub in
           (c, m, "[" ++ dec ob ++ "]" ++ label a obs, "[" ++ dec sb ++ "]" ++ label a sub) in
    Ok (out ++ oname ++ shape_suffix display a obs ++ "," ++ sname ++ shape_suffix display a sub ++ "," ++ dec idx ++ newline, c, m).

Fixpoint fold_res {A B} (f : A -> B -> res A) (l : list B) (x : A) : res A :=
  match l with [] => Ok x | b :: l => y <- f x b ;; fold_res f l y end.

(** csv_record.hpp:38-102: subj_nodes in some order of iteration *)
Definition csv_subject (a : about) verbose display consider (st : string * list (nat * nat) * nat) (p : nat * list (nat * nat)) :=
  if is_node a (fst p) then fold_res (csv_edge a verbose display consider (fst p)) (snd p) st else Ok st.

Definition to_csv (a : about) (verbose display : bool) (consider : option nat) (it : adj) : res string :=
  st <- fold_res (csv_subject a verbose display consider) it ("", [], 0) ;; Ok (fst (fst st)).
