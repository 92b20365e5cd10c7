(** Model of app/tenncor/src/graph/operations/transform.ipp: for each operation the shaper
    (result shape from the argument shapes) and the forward function that fills the
    destination buffer. Buffers are lists; an access outside is UB. The graph bookkeeping
    around them (node reuse by label, observers) is modelled in other files. *)
From Coq Require Import NArith.
From Verif Require Import Common ShapeModel FitModel.

(** std::swap(l[i], l[j]) *)
Definition swap_at {A} (l : list A) (i j : nat) : res (list A) :=
  x <- rd l i ;; y <- rd l j ;; l1 <- wr l i y ;; wr l1 j x.

(** the recurring loop [for i < n_elems: coord = outs.coordinate_from_idx(i); change coord;
    dest[i] = src[ins.flat_idx(coord)]] (transform.ipp:73-79, 179-186, 487-495) *)
Definition gather {T} (outs ins : shape) (change : list nat -> res (list nat)) (src dest : list T) : res (list T) :=
  for_ (n_elems outs) (fun i d =>
    c <- coordinate_from_idx outs i ;;
    c' <- change c ;;
    k <- flat_idx ins c' ;;
    v <- rd src k ;;
    wr d i v) dest.

(** transform.ipp:21-24 *)
Definition order_axes (ax : nat * nat) : nat * nat :=
  if snd ax <? fst ax then (snd ax, fst ax) else ax.

(** transform.ipp:40-54 shaper of transpose; [ax] is already ordered *)
Definition transpose_shape (ax : nat * nat) (s : shape) : res shape :=
  if is_fully_defined s then
    let inl := if length s <=? snd ax then s ++ repeat 1 (snd ax - length s + 1) else s in
    swap_at inl (fst ax) (snd ax)
  else Ok [].

(** transform.ipp:56-81 forward of transpose *)
Definition transpose_fwd {T} (ax : nat * nat) (outs ins : shape) (src dest : list T) : res (list T) :=
  if length ins <=? fst ax then Ok dest
  else if length ins <=? snd ax then memcpy dest 0 src 0 (n_elems outs)
  else gather outs ins (fun c => swap_at c (fst ax) (snd ax)) src dest.

(** transform.ipp:115-122: the two bounded loops computing [inbound] *)
Fixpoint fit_op_low (k j : nat) (coords src_list : list nat) : res bool :=
  match k with
  | 0 => Ok true
  | S k' => c <- rd coords j ;; d <- rd src_list j ;;
            if c <? d then fit_op_low k' (S j) coords src_list else Ok false
  end.
Fixpoint fit_op_high (k j : nat) (coords : list nat) : res bool :=
  match k with
  | 0 => Ok true
  | S k' => c <- rd coords j ;; if c =? 0 then fit_op_high k' (S j) coords else Ok false
  end.

(** transform.ipp:103-126 forward of fit; result shape is the watched node's shape (98-101) *)
Definition fit_op_fwd {T} (zero : T) (outs in0 in1 : shape) (src dest : list T) : res (list T) :=
  let minrank := Nat.min (length in0) (length in1) in
  for_ (n_elems outs) (fun i d =>
    coords <- coordinate_from_idx outs i ;;
    lo <- fit_op_low minrank 0 coords in0 ;;
    hi <- (if lo then fit_op_high (length coords - minrank) minrank coords else Ok false) ;;
    if hi then k <- flat_idx in0 coords ;; v <- rd src k ;; wr d i v
    else wr d i zero) dest.

(** transform.ipp:148-170 shaper of extend (multiplier at least 2) *)
Definition extend_shape (index multiplier : nat) (s : shape) : res shape :=
  _ <- assert_ (is_fully_defined s) ;;
  if length s <=? index then Ok (s ++ repeat 1 (index - length s) ++ [multiplier])
  else d <- rd s index ;; wr s index (d * multiplier).

(** transform.ipp:171-184 forward of extend *)
Definition extend_fwd {T} (index : nat) (outs ins : shape) (src dest : list T) : res (list T) :=
  dim <- rd ins index ;;
  gather outs ins (fun c =>
    x <- rd c index ;; if dim =? 0 then UB else wr c index (x mod dim)) src dest.

(** what extend does before building a node (transform.ipp:140-141) *)
Inductive extend_result := ExtendZero | ExtendSame | ExtendNode.
Definition extend_case (multiplier : nat) : extend_result :=
  if multiplier =? 0 then ExtendZero else if multiplier =? 1 then ExtendSame else ExtendNode.

(** transform.ipp:206-236 shaper of compress along an axis *)
Definition compress_shape (idx : nat) (s : shape) : res shape :=
  _ <- assert_ (is_fully_defined s) ;;
  let srank := length s in
  if srank <=? idx then Ok s
  else if srank =? 1 then wr s 0 1
  else if idx =? 0 then Ok (tl s)
  else if length s - 1 =? idx then Ok (removelast s)
  else wr s idx 1.

(** transform.ipp:256-269: rebuilding the argument coordinate from the result coordinate *)
Definition reaxis (idx : nat) (coords : list nat) : res (list nat) :=
  if idx =? length coords then Ok (coords ++ [0])
  else if idx =? 0 then Ok (0 :: coords)
  else wr coords idx 0.

(** transform.ipp:239-278 forward of compress along an axis *)
Definition compress_fwd {T} (collector : T -> T -> T) (idx : nat) (outs ins : shape) (src dest : list T) : res (list T) :=
  if length ins <=? idx then memcpy dest 0 src 0 (n_elems outs)
  else
    adim <- rd ins idx ;;
    for_ (n_elems outs) (fun i d =>
      coords <- coordinate_from_idx outs i ;;
      coords <- reaxis idx coords ;;
      k <- flat_idx ins coords ;;
      v <- rd src k ;;
      d <- wr d i v ;;
      r <- for_ (adim - 1) (fun j0 (st : list nat * list T) =>
             let j := j0 + 1 in
             let '(coords, d) := st in
             coords <- wr coords idx j ;;
             k <- flat_idx ins coords ;;
             acc <- rd d i ;;
             v <- rd src k ;;
             d <- wr d i (collector acc v) ;;
             Ok (coords, d)) (coords, d) ;;
      Ok (snd r)) dest.

(** transform.ipp:282 shaper without axis *)
Definition compress_all_shape (s : shape) : shape := [1].

(** transform.ipp:284-292 forward without axis (std::accumulate from the second element) *)
Definition compress_all_fwd {T} (collector : T -> T -> T) (ins : shape) (src dest : list T) : res (list T) :=
  let n_ins := n_elems ins in
  if n_ins =? 0 then Ok dest
  else
    x0 <- rd src 0 ;;
    acc <- for_ (n_ins - 1) (fun i acc => v <- rd src (i + 1) ;; Ok (collector acc v)) x0 ;;
    wr dest 0 acc.

(** transform.ipp:368-394 shaper of arg_compress along an axis *)
Definition arg_compress_shape (dim : nat) (s : shape) : res shape :=
  _ <- assert_ (is_fully_defined s) ;;
  if length s <=? dim then Throw
  else
    tv <- wr s dim 1 ;;
    if 1 <? length tv then
      if dim =? 0 then Ok (tl tv)
      else if length tv - 1 =? dim then Ok (removelast tv)
      else Ok tv
    else Ok tv.

(** transform.ipp:402-412: as in compress, but a middle coordinate is left alone *)
Definition reaxis_arg (idx : nat) (coords : list nat) : res (list nat) :=
  if idx =? length coords then Ok (coords ++ [0])
  else if idx =? 0 then Ok (0 :: coords)
  else Ok coords.

(** transform.ipp:395-422 forward of arg_compress along an axis *)
Definition arg_compress_fwd {T} (search : list T -> res T) (dim : nat) (outs ins : shape) (src dest : list T) : res (list T) :=
  for_ (n_elems outs) (fun i d =>
    coords <- coordinate_from_idx outs i ;;
    coords <- reaxis_arg dim coords ;;
    adim <- rd ins dim ;;
    r <- for_ adim (fun j (st : list nat * list T) =>
           let '(coords, sv) := st in
           coords <- wr coords dim j ;;
           k <- flat_idx ins coords ;;
           v <- rd src k ;;
           Ok (coords, sv ++ [v])) (coords, []) ;;
    x <- search (snd r) ;;
    wr d i x) dest.

(** transform.ipp:426-429 shaper of arg_compress without axis: the argument's rank *)
Definition arg_compress_all_shape (s : shape) : shape := [length s].

(** transform.ipp:431-438 forward of arg_compress without axis *)
Definition arg_compress_all_fwd {T} (search : list T -> res T) (ins : shape) (src dest : list T) : res (list T) :=
  let n_ins := n_elems ins in
  if n_ins <=? length src then x <- search (firstn n_ins src) ;; wr dest 0 x else UB.

(** std::max_element with [a < b] and std::distance from begin (transform.ipp:454-457);
    [k] is the position of the current element, [best] that of the current maximum *)
Fixpoint max_element_from {T} (lt : T -> T -> bool) (rest : list T) (k best : nat) (bestv : T) : nat :=
  match rest with
  | [] => best
  | x :: xs => if lt bestv x then max_element_from lt xs (S k) k x
               else max_element_from lt xs (S k) best bestv
  end.
Definition arg_max_search {T} (lt : T -> T -> bool) (of_nat : nat -> T) (data : list T) : res T :=
  match data with
  | [] => Ok (of_nat 0)
  | x :: xs => Ok (of_nat (max_element_from lt xs 1 0 x))
  end.

(** transform.ipp:491-494: coord[d] = outlist[d] - coord[d] - 1 for d in dims *)
Fixpoint flip_coord (outlist : shape) (dims : list nat) (coord : list nat) : res (list nat) :=
  match dims with
  | [] => Ok coord
  | d :: ds =>
    o <- rd outlist d ;; x <- rd coord d ;;
    c <- wr coord d (o - x - 1) ;;
    flip_coord outlist ds c
  end.

(** transform.ipp:478-497 flip: the shaper returns the argument's shape *)
Definition flip_shape (s : shape) : shape := s.
Definition flip_fwd {T} (dims : list nat) (outs ins : shape) (src dest : list T) : res (list T) :=
  gather outs ins (flip_coord outs dims) src dest.

(** transform.ipp:518-525 shaper of cross_corr2d, on size_t: [x -= y + 1] wraps around *)
Definition sub64 (x y : N) : N := ((x + 2 ^ 64 - y mod 2 ^ 64) mod 2 ^ 64)%N.
Definition cross_corr_shape (d1 d2 : nat) (img filt : list N) : res (list N) :=
  o1 <- rd img d1 ;; f1 <- rd filt d1 ;;
  img <- wr img d1 (sub64 o1 (f1 + 1)) ;;
  o2 <- rd img d2 ;; f2 <- rd filt d2 ;;
  wr img d2 (sub64 o2 (f2 + 1)).

(** transform.ipp:526-551 forward of cross_corr2d. [src1], the filter's buffer, is passed
    because the code receives it. Dimensions small enough not to wrap. *)
Definition cross_corr_fwd {T} (zero : T) (add mul : T -> T -> T) (d1 d2 : nat) (outs ins : shape)
    (src0 src1 dest : list T) : res (list T) :=
  i1 <- rd ins d1 ;; o1 <- rd outs d1 ;;
  i2 <- rd ins d2 ;; o2 <- rd outs d2 ;;
  let firstn := i1 - o1 in
  let secondn := i2 - o2 in
  for_ (n_elems outs) (fun i d =>
    d <- wr d i zero ;;
    coord <- coordinate_from_idx outs i ;;
    r <- for_ firstn (fun j (st : list nat * list T) =>
           st <- for_ secondn (fun k (st : list nat * list T) =>
                   let '(coord, d) := st in
                   p <- flat_idx ins coord ;;
                   a <- rd src0 p ;;
                   b <- rd src0 (k * firstn + j) ;;
                   acc <- rd d i ;;
                   d <- wr d i (add acc (mul a b)) ;;
                   y <- rd coord d2 ;;
                   coord <- wr coord d2 (y + 1) ;;
                   Ok (coord, d)) st ;;
           let '(coord, d) := st in
           x <- rd coord d1 ;;
           coord <- wr coord d1 (x + 1) ;;
           Ok (coord, d)) (coord, d) ;;
    Ok (snd r)) dest.
