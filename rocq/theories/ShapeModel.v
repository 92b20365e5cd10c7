(** Model of app/tenncor/src/tensor/tensorshape.cpp.
    A shape is its [dimensions_] vector; 0 is an unknown dimension.
    Dimensions are unbounded naturals here; 64-bit wrap-around of the element
    counts is modelled separately in [n_elems64]/[n_known64]. *)
From Coq Require Import NArith.
From Verif Require Import Common.

Definition shape := list nat.

(** tensorshape.cpp:30-39 tensorshape::n_elems *)
Definition n_elems (s : shape) : nat :=
  match s with
  | [] => 0
  | _ => fold_left Nat.mul s 1
  end.

(** tensorshape.cpp:41-57 tensorshape::n_known *)
Definition n_known (s : shape) : nat :=
  match s with
  | [] => 0
  | _ => fold_left (fun a b => if b =? 0 then a else a * b) s 1
  end.

(** tensorshape.cpp:59-62 tensorshape::rank *)
Definition rank (s : shape) : nat := length s.

(** tensorshape.cpp:78,82: [while (b < stop && v == dims[b]) b++].
    [k] is [stop - b], so the recursion is the loop itself. *)
Fixpoint skip_up (v : nat) (dims : shape) (k b : nat) : res nat :=
  match k with
  | 0 => Ok b
  | S k' => d <- rd dims b ;;
            if d =? v then skip_up v dims k' (S b) else Ok b
  end.

(** tensorshape.cpp:79,83: [while (e > lo && v == dims[e]) e--]; [k] is [e - lo]. *)
Fixpoint skip_down (v : nat) (dims : shape) (k e : nat) : res nat :=
  match k with
  | 0 => Ok e
  | S k' => d <- rd dims e ;;
            if d =? v then skip_down v dims k' (e - 1) else Ok e
  end.

(** tensorshape.cpp:105-112: final pointwise comparison of two index windows;
    [k] is the number of iterations, acc is the variable [incomp].
    [0 == (a && b)] is the C++ logical and. *)
Fixpoint cmp_window (a b : shape) (k ba bb : nat) (acc : bool) : res bool :=
  match k with
  | 0 => Ok acc
  | S k' => x <- rd a ba ;; y <- rd b bb ;;
            cmp_window a b k' (S ba) (S bb)
              (acc && ((x =? y) || negb (negb (x =? 0) && negb (y =? 0))))
  end.

(** tensorshape.cpp:64-121 tensorshape::is_compatible_with *)
Definition is_compatible_with (a b : shape) : res bool :=
  match a, b with
  | [], _ => Ok true
  | _, [] => Ok true
  | _, _ =>
    let thisn := length a in
    let othern := length b in
    let endthis := thisn - 1 in
    let endother := othern - 1 in
    if thisn =? othern then
      cmp_window a b (Nat.min (endthis + 1) (endother + 1)) 0 0 true
    else
      beginthis <- skip_up 1 a (thisn - 1) 0 ;;
      endthis <- skip_down 1 a (endthis - beginthis) endthis ;;
      beginother <- skip_up 1 b (othern - 1) 0 ;;
      endother <- skip_down 1 b (endother - beginother) endother ;;
      let lenthis := endthis - beginthis in
      let lenother := endother - beginother in
      if lenother <? lenthis then
        (* lines 86-97: [endthis - beginthis > lenother] stops after lenthis - lenother steps *)
        beginthis <- skip_up 0 a (lenthis - lenother) beginthis ;;
        endthis <- skip_down 0 a (endthis - beginthis - lenother) endthis ;;
        if lenother <? endthis - beginthis then Ok false
        else cmp_window a b (Nat.min (endthis + 1 - beginthis) (endother + 1 - beginother)) beginthis beginother true
      else if lenthis <? lenother then
        beginother <- skip_up 0 b (lenother - lenthis) beginother ;;
        endother <- skip_down 0 b (endother - beginother - lenthis) endother ;;
        if lenthis <? endother - beginother then Ok false
        else cmp_window a b (Nat.min (endthis + 1 - beginthis) (endother + 1 - beginother)) beginthis beginother true
      else cmp_window a b (Nat.min (endthis + 1 - beginthis) (endother + 1 - beginother)) beginthis beginother true
  end.

(** tensorshape.cpp:123-126 *)
Definition is_part_defined (s : shape) : bool :=
  match s with [] => false | _ => true end.

(** tensorshape.cpp:128-140 *)
Definition is_fully_defined (s : shape) : bool :=
  match s with
  | [] => false
  | _ => fold_left (fun known d => known && (0 <? d)) s true
  end.

(** tensorshape.cpp:172-191, body of the loop of merge_with *)
Fixpoint merge_dims (a b : shape) : shape :=
  match a, b with
  | v :: a', o :: b' =>
    (if (v =? o) || (negb (v =? 0) && negb (o =? 0)) then v else v + o) :: merge_dims a' b'
  | _, _ => []
  end.

(** tensorshape.cpp:160-192 tensorshape::merge_with *)
Definition merge_with (a b : shape) : res shape :=
  match a, b with
  | [], _ => Ok b
  | _, [] => Ok a
  | _, _ => if length a =? length b then Ok (merge_dims a b) else Throw
  end.

(** tensorshape.cpp:194-211 tensorshape::trim ([at] is in range whenever the loops run) *)
Definition trim (s : shape) : res shape :=
  match s with
  | [] => Ok []
  | _ =>
    let e := length s - 1 in
    start <- skip_up 1 s e 0 ;;
    e' <- skip_down 1 s (e - start) e ;;
    d <- rd s e' ;;
    if (start <? e') || negb (d =? 1)
    then Ok (firstn (e' + 1 - start) (skipn start s))
    else Ok []
  end.

(** tensorshape.cpp:213-226 tensorshape::concatenate *)
Definition concatenate (a b : shape) : shape :=
  match a, b with
  | [], _ => b
  | _, [] => a
  | _, _ => a ++ b
  end.

(** tensorshape.cpp:228-250 tensorshape::with_rank *)
Definition with_rank (s : shape) (r : nat) : shape :=
  let ndim := length s in
  if r <? ndim then firstn r s
  else if ndim <? r then s ++ repeat 1 (r - ndim)
  else s.

(** tensorshape.cpp:252-263 *)
Definition with_rank_at_least (s : shape) (r : nat) : shape :=
  let ndim := length s in
  if ndim <? r then s ++ repeat 1 (r - ndim) else s.

(** tensorshape.cpp:265-279 *)
Definition with_rank_at_most (s : shape) (r : nat) : shape :=
  if r <? length s then firstn r s else s.

(** tensorshape.cpp:285-289 loop of flat_idx, i from 1 to n-1 *)
Definition flat_body (dims coord : list nat) (n j : nat) (index : nat) : res nat :=
  let i := j + 1 in
  c <- rd coord (n - i) ;;
  d <- rd dims (n - i - 1) ;;
  Ok ((index + c) * d).

(** tensorshape.cpp:281-291 tensorshape::flat_idx *)
Definition flat_idx (dims : shape) (coord : list nat) : res nat :=
  let n := Nat.min (length dims) (length coord) in
  index <- for_ (n - 1) (flat_body dims coord n) 0 ;;
  c0 <- rd coord 0 ;;
  Ok (index + c0).

(** tensorshape.cpp:293-304 tensorshape::coordinate_from_idx; [% 0] is undefined *)
Fixpoint coordinate_from_idx (dims : shape) (i : nat) : res (list nat) :=
  match dims with
  | [] => Ok []
  | d :: ds =>
    if d =? 0 then UB
    else
      let xd := i mod d in
      rest <- coordinate_from_idx ds ((i - xd) / d) ;;
      Ok (xd :: rest)
  end.

(** tensorshape.cpp:306-313 tensorshape::iterate. The callback is any state
    transformer receiving the coordinate and the index. *)
Definition iterate {S : Type} (dims : shape) (coord_call : list nat -> nat -> S -> res S) (s : S) : res S :=
  for_ (n_elems dims) (fun i st => c <- coordinate_from_idx dims i ;; coord_call c i st) s.

(** ---- 64-bit versions ---- *)
Local Open Scope N_scope.
Definition wrap64 (x : N) : N := x mod 2 ^ 64.

(** tensorshape.cpp:30-39 with size_t arithmetic *)
Definition n_elems64 (s : list N) : N :=
  match s with
  | [] => 0
  | _ => fold_left (fun a b => wrap64 (a * b)) s 1
  end.

(** tensorshape.cpp:41-57 with size_t arithmetic *)
Definition n_known64 (s : list N) : N :=
  match s with
  | [] => 0
  | _ => fold_left (fun a b => if b =? 0 then a else wrap64 (a * b)) s 1
  end.

(** app/tenncor/include/memory/iallocator.hpp:53-67
    [allocate<T>(n)] returns nullptr when [n > SIZE_MAX / sizeof(T)];
    otherwise asks for [n * sizeof(T)] bytes. [None] is nullptr. *)
Definition alloc_bytes64 (n elem_size : N) : option N :=
  if (2 ^ 64 - 1) / elem_size <? n then None else Some (wrap64 (n * elem_size)).
