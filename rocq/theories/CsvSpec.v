(** Reading the file back: a reader of CSV text that knows nothing of how it was written. *)
From Coq Require Import String Ascii DecimalString.
From Verif Require Import Common RecordModel CsvModel.
Local Open Scope string_scope.

(** the text up to the first [c], and after it if there is one *)
Fixpoint cut (c : ascii) (s : string) : string * option string :=
  match s with
  | "" => ("", None)
  | String x r => if Ascii.eqb x c then ("", Some r) else let '(h, t) := cut c r in (String x h, t)
  end.

(** the pieces of [s] between the [c]s *)
Fixpoint split (c : ascii) (s : string) : list string :=
  match s with
  | "" => [""]
  | String x r => if Ascii.eqb x c then "" :: split c r
                  else match split c r with h :: t => String x h :: t | [] => [String x ""] end
  end.

Definition nl : ascii := ascii_of_nat 10.

Definition parse_nat (s : string) : option nat := option_map Nat.of_uint (NilZero.uint_of_string s).

(** a cell "[12]text" *)
Definition parse_cell (s : string) : option (nat * string) :=
  match s with
  | String "[" r =>
    match cut "]" r with
    | (d, Some t) => match parse_nat d with Some n => Some (n, t) | None => None end
    | _ => None
    end
  | _ => None
  end.

(** the three cells of a line *)
Definition cells (s : string) : option (string * string * nat) :=
  match split "," s with
  | [o; s; i] => match parse_nat i with Some i => Some (o, s, i) | None => None end
  | _ => None
  end.

Fixpoint all_some {A} (l : list (option A)) : option (list A) :=
  match l with
  | [] => Some []
  | x :: l => match x, all_some l with Some a, Some r => Some (a :: r) | _, _ => None end
  end.

(** the lines of a file: every line is ended by a newline *)
Definition lines (s : string) : list string := removelast (split nl s).

Definition read_names (s : string) : option (list (string * string * nat)) := all_some (map cells (lines s)).

Definition read_numbers (s : string) : option (list ((nat * string) * (nat * string) * nat)) :=
  match read_names s with
  | None => None
  | Some l => all_some (map (fun r => match parse_cell (fst (fst r)), parse_cell (snd (fst r)) with
                                      | Some o, Some s => Some (o, s, snd r)
                                      | _, _ => None
                                      end) l)
  end.

(** the edges to_csv is asked for, in the order of iteration: their subject is a node of the type,
    and their observer belongs to the graph considered, if one is given *)
Definition selected (a : about) (consider : option nat) (it : adj) : list (nat * nat * nat) :=
  filter (fun e => let '(o, s, _) := e in is_node a s && match consider with Some g => (graph a o =? g)%nat | None => true end) (edges it).

(** each element once, in the order of first appearance; the position of an element *)
Fixpoint distinct (l : list nat) : list nat :=
  match l with [] => [] | x :: l => x :: filter (fun y => negb (y =? x)%nat) (distinct l) end.
Fixpoint position (x : nat) (l : list nat) : nat :=
  match l with [] => 0 | y :: l => if (y =? x)%nat then 0 else S (position x l) end.

(** the nodes in the order in which the lines mention them *)
Definition mentioned (l : list (nat * nat * nat)) : list nat := distinct (flat_map (fun e => [fst (fst e); snd (fst e)]) l).

(** a text that cannot be confused with a separator *)
Definition plain (s : string) : Prop := ~ In ","%char (list_ascii_of_string s) /\ ~ In nl (list_ascii_of_string s).
