(** What is assumed of the printing of scalars and of the names of comparisons, and what it
    means that two results are the same. *)
From Coq Require Import String Ascii DecimalString ZArith.
From Verif Require Import Common ShapeModel ElemSpec ElemModel CseModel.
Local Open Scope string_scope.
Local Open Scope list_scope.

Fixpoint all_chars (ok : ascii -> bool) (s : string) : bool :=
  match s with EmptyString => true | String c r => ok c && all_chars ok r end.
(** a string without underscore *)
Definition clean (s : string) : Prop := all_chars (fun c => negb (c =? "_")%char) s = true.
(** the characters of printed numbers, inf and nan included *)
Definition number_char (c : ascii) : bool :=
  existsb (fun d => (c =? d)%char) (list_ascii_of_string "0123456789+-.einfa").
Definition prints_number (s : string) : Prop := all_chars number_char s = true.

(** printing that keeps different scalars apart *)
Definition exact_printing {T} (show : T -> string) : Prop :=
  (forall x, prints_number (show x)) /\ (forall x y, show x = show y -> x = y).

(** comparisons: every name stands for one function; with a scalar on one side only functions
    that do not care about the order *)
Definition well_named {T} (cmp_of : string -> T -> T -> bool) (op : @cop T) : Prop :=
  match op with
  | KUn (UCondL _ _) | KUn (UCondR _ _) => False
  | KCondL name cmp _ | KCondR name cmp _ => clean name /\ cmp = cmp_of name /\ forall x y, cmp x y = cmp y x
  | KCond name cmp => clean name /\ cmp = cmp_of name
  | _ => True
  end.

(** the first of a set: a member, if there is one *)
Definition picks (pick : list nat -> option nat) : Prop :=
  (forall l m, pick l = Some m -> In m l) /\ (forall l, l <> [] -> pick l <> None).

(** a history without set_label in which all comparisons are named properly *)
Definition proper {T} (cmp_of : string -> T -> T -> bool) (h : @hop T) : Prop :=
  match h with HMake op _ => well_named cmp_of op | HLabel _ _ => False | _ => True end.

(** a tensor with as many elements as its shape says *)
Definition full {T} (t : tens T) : Prop := is_fully_defined (fst t) = true /\ length (snd t) = n_elems (fst t).

(** addition and multiplication, the operations that take their arguments in any order *)
Definition commutative_op {T} (op : @cop T) : Prop :=
  match op with KBin BAdd | KBin BMul | KAx BAdd _ _ | KAx BMul _ _ => True | _ => False end.

(** equal, or both tensors with the same elements and shapes that name the same layout *)
Definition same_result {T} (r r' : res (tens T)) : Prop :=
  r = r' \/ exists s s' d, r = Ok (s, d) /\ r' = Ok (s', d) /\ same_layout s s'.

(** what a call of the builder is expected to compute from the values of its arguments:
    clip_norm also uses the norm *)
Definition meaning {T} (N : num T) (fresh : nat -> T) (strassen_on : bool) (of_nat : nat -> T) (op : @cop T) (ts : list (tens T)) : res (tens T) :=
  match op with
  | KClipNorm _ => nrm <- sem N fresh strassen_on of_nat KNorm ts ;; sem N fresh strassen_on of_nat op (nrm :: ts)
  | _ => sem N fresh strassen_on of_nat op ts
  end.

(** a is the norm of another node *)
Definition norm_node {T} (g : @graph T) (a : nat) : Prop := exists nd, nth_error g a = Some nd /\ g_op nd = Some KNorm.

(** integers printed in full *)
Definition show_Z (z : Z) : string := DecimalString.NilZero.string_of_int (Z.to_int z).

(** an integer-valued double printed the way a C++ stream does by default (%g): in full below
    1000000, otherwise six digits, rounded half to even, without trailing zeros, with exponent *)
Fixpoint n_digits (fuel : nat) (z : Z) : nat :=
  match fuel with O => O | S f => if (z <? 10)%Z then 1 else S (n_digits f (z / 10)%Z) end.
Fixpoint trim_zeros (fuel : nat) (z : Z) : Z :=
  match fuel with O => z | S f => if (z mod 10 =? 0)%Z then trim_zeros f (z / 10)%Z else z end.
Definition round_even (a b : Z) : Z :=
  let q := (a / b)%Z in let r := (a mod b * 2)%Z in
  if (r <? b)%Z then q else if (b <? r)%Z then (q + 1)%Z else if Z.even q then q else (q + 1)%Z.
Definition show_g6 (z : Z) : string :=
  let a := Z.abs z in
  let sign := if (z <? 0)%Z then "-" else "" in
  if (a <? 1000000)%Z then (sign ++ show_Z a)%string
  else
    let k := n_digits 400 a in
    let q0 := round_even a (10 ^ Z.of_nat (k - 6)) in
    let '(q, k) := if (q0 =? 1000000)%Z then (100000%Z, S k) else (q0, k) in
    let m := show_Z (trim_zeros 5 q) in
    let e := k - 1 in
    (sign ++ substring 0 1 m ++ (if (1 <? String.length m)%nat then "." else "") ++ substring 1 5 m ++
      "e+" ++ (if (e <? 10)%nat then "0" else "") ++ dec e)%string.

(** the first element *)
Definition pick_first (l : list nat) : option nat := hd_error l.
