(** Model of fit_toshape, app/tenncor/src/tensor/tensor.ipp:19-63. *)
From Verif Require Import Common ShapeModel.

(** [memcpy(dest + d, src + s, n * sizeof(T))] between distinct buffers. *)
Definition memcpy {T} (dest : list T) (d : nat) (src : list T) (s n : nat) : res (list T) :=
  for_ n (fun i buf => v <- rd src (s + i) ;; wr buf (d + i) v) dest.

(** [memset(dest, 0, n * sizeof(T))]; [zero] is the all-zero-bytes value of T. *)
Definition memset0 {T} (zero : T) (dest : list T) (n : nat) : res (list T) :=
  for_ n (fun i buf => wr buf i zero) dest.

(** tensor.ipp:40-51: [for (i = 1; srcinbound && i < m; i++)]; [k] is [m - i].
    Returns [srcinbound] and [src_jump]. *)
Fixpoint fit_scan (k i : nat) (srccoord outlist inlist : list nat) (src_jump : nat) : res (bool * nat) :=
  match k with
  | 0 => Ok (true, src_jump)
  | S k' =>
    c <- rd srccoord i ;;
    o <- rd outlist i ;;
    d <- rd inlist i ;;
    if c <? o then fit_scan k' (S i) srccoord outlist inlist (src_jump * d)
    else Ok (false, src_jump * (d - c))
  end.

(** tensor.ipp:33-62: the while loop. A loop that does not finish within the fuel is
    reported as UB (a C++ loop without progress is undefined). *)
Fixpoint fit_loop {T} (fuel : nat) (outshape outlist inlist clipped : shape)
    (minrank numin basewidth : nat) (src : list T) (srcidx : nat) (dest : list T) : res (list T) :=
  if srcidx <? numin then
    match fuel with
    | 0 => UB
    | S fuel' =>
      srccoord <- coordinate_from_idx clipped srcidx ;;
      p <- fit_scan (minrank - 1) 1 srccoord outlist inlist 1 ;;
      in0 <- rd inlist 0 ;;
      let '(srcinbound, src_jump) := p in
      if srcinbound then
        destidx <- flat_idx outshape srccoord ;;
        dest' <- memcpy dest destidx src srcidx basewidth ;;
        fit_loop fuel' outshape outlist inlist clipped minrank numin basewidth src (srcidx + in0) dest'
      else
        fit_loop fuel' outshape outlist inlist clipped minrank numin basewidth src (srcidx + src_jump * in0) dest
    end
  else Ok dest.

(** tensor.ipp:19-63 fit_toshape. [dest] and [src] are the whole buffers; the result is
    the new contents of [dest]. *)
Definition fit_toshape {T} (zero : T) (dest : list T) (outshape : shape) (src : list T) (inshape : shape) : res (list T) :=
  _ <- assert_ (is_fully_defined outshape && is_fully_defined inshape) ;;
  let numout := n_elems outshape in
  let minrank := Nat.min (length outshape) (length inshape) in
  let clippedshape := with_rank inshape minrank in
  let numin := n_elems clippedshape in
  dest <- memset0 zero dest numout ;;
  o0 <- rd outshape 0 ;;
  i0 <- rd inshape 0 ;;
  fit_loop numin outshape outshape inshape clippedshape minrank numin (Nat.min o0 i0) src 0 dest.
