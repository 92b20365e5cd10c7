(** Model of app/tenncor/src/graph/operations/matmul.ipp. Buffers live in a block memory
    (MemModel); [thr] stands for the macro STRASSEN_THRESHOLD (matmul.ipp:11, 256). Elements
    come from any type with the operations the template uses: 0, +, -, *. *)
From Verif Require Import Common ShapeModel MemModel.

Definition STRASSEN_THRESHOLD := 256.

(** matmul.ipp:16-26; the loop halves, so [insize] iterations are enough *)
Fixpoint min_pad_loop (thr fuel insize counter : nat) : nat :=
  match fuel with
  | 0 => insize * 2 ^ counter
  | S f => if thr <? insize then min_pad_loop thr f ((insize + 1) / 2) (counter + 1)
           else insize * 2 ^ counter
  end.
Definition min_pad (thr insize : nat) : nat := min_pad_loop thr insize insize 0.

Section Mul.
Context {T : Type} (zero : T) (add sub mul : T -> T -> T).
(** content of uninitialised memory *)
Context (fresh : nat -> nat -> T).

(** matmul.ipp:29-44, [cm] is coord_map *)
Definition cubic_mul (c a b : ptr) (dimX dimY dimZ : nat) (cm0 cm1 cm2 cm3 : nat) (m : mem T) : res (mem T) :=
  for_ dimY (fun y m =>
    for_ dimX (fun x m =>
      m <- wrp m (padd c (x + y * dimX)) zero ;;
      for_ dimZ (fun z m =>
        let aidx := cm0 * y + cm1 * z in
        let bidx := cm2 * x + cm3 * z in
        cv <- rdp m (padd c (x + y * dimX)) ;;
        av <- rdp m (padd a aidx) ;;
        bv <- rdp m (padd b bidx) ;;
        wrp m (padd c (x + y * dimX)) (add cv (mul av bv))) m) m) m.

(** reading two cells, combining, writing: [dst = x op y] *)
Definition bin (op : T -> T -> T) (dst x y : ptr) (m : mem T) : res (mem T) :=
  v <- rdp m x ;; w <- rdp m y ;; wrp m dst (op v w).
(** [dst = x] *)
Definition cpy (dst x : ptr) (m : mem T) : res (mem T) := v <- rdp m x ;; wrp m dst v.

(** matmul.ipp:85-104 iteration 1 *)
Definition strassen_iter1 (c a temp temp2 : ptr) (dimPad q Q : nat) (m : mem T) : res (mem T) :=
  for_ q (fun x m => for_ q (fun y m =>
    let quadidx := x + q * y in
    let idx11 := x + dimPad * y in
    let idx12 := x + q + dimPad * y in
    let idx21 := x + dimPad * (y + q) in
    let idx22 := x + q + dimPad * (y + q) in
    m <- cpy (padd c quadidx) (padd a idx11) m ;;
    m <- bin add (padd c (Q + quadidx)) (padd a idx21) (padd a idx22) m ;;
    m <- cpy (padd c (2 * Q + quadidx)) (padd a idx22) m ;;
    m <- bin add (padd c (3 * Q + quadidx)) (padd a idx11) (padd a idx12) m ;;
    m <- bin sub (padd temp quadidx) (padd a idx21) (padd a idx11) m ;;
    bin sub (padd temp2 quadidx) (padd a idx12) (padd a idx22) m) m) m.

(** matmul.ipp:105-121 iteration 2 *)
Definition strassen_iter2 (a b : ptr) (dimPad q Q : nat) (m : mem T) : res (mem T) :=
  for_ q (fun x m => for_ q (fun y m =>
    let quadidx := x + q * y in
    let idx11 := x + dimPad * y in
    let idx12 := x + q + dimPad * y in
    let idx21 := x + dimPad * (y + q) in
    let idx22 := x + q + dimPad * (y + q) in
    m <- cpy (padd a quadidx) (padd b idx11) m ;;
    m <- cpy (padd a (Q + quadidx)) (padd b idx12) m ;;
    m <- cpy (padd a (2 * Q + quadidx)) (padd b idx21) m ;;
    cpy (padd a (3 * Q + quadidx)) (padd b idx22) m) m) m.

(** matmul.ipp:122-131 iteration 3 *)
Definition strassen_iter3 (c a b : ptr) (Q : nat) (m : mem T) : res (mem T) :=
  for_ Q (fun quadidx m =>
    m <- bin add (padd b quadidx) (padd c quadidx) (padd c (2 * Q + quadidx)) m ;;
    m <- bin add (padd b (Q + quadidx)) (padd a quadidx) (padd a (3 * Q + quadidx)) m ;;
    m <- bin add (padd b (2 * Q + quadidx)) (padd a quadidx) (padd a (Q + quadidx)) m ;;
    m <- bin add (padd b (3 * Q + quadidx)) (padd a (2 * Q + quadidx)) (padd a (3 * Q + quadidx)) m ;;
    m <- bin sub (padd a (Q + quadidx)) (padd a (Q + quadidx)) (padd a (3 * Q + quadidx)) m ;;
    bin sub (padd a (2 * Q + quadidx)) (padd a (2 * Q + quadidx)) (padd a quadidx) m) m.

(** matmul.ipp:149-165 recombination *)
Definition strassen_iter4 (c b temp temp2 temp3 : ptr) (dimPad q Q : nat) (m : mem T) : res (mem T) :=
  for_ q (fun x m => for_ q (fun y m =>
    let quadidx := x + q * y in
    let idx11 := x + dimPad * y in
    let idx12 := x + q + dimPad * y in
    let idx21 := x + dimPad * (y + q) in
    let idx22 := x + q + dimPad * (y + q) in
    t2 <- rdp m (padd temp2 quadidx) ;; b2 <- rdp m (padd b (2 * Q + quadidx)) ;;
    b3 <- rdp m (padd b (3 * Q + quadidx)) ;; t1 <- rdp m (padd temp quadidx) ;;
    m <- wrp m (padd c idx11) (add (sub (add t2 b2) b3) t1) ;;
    m <- bin add (padd c idx12) (padd b (Q + quadidx)) (padd b (3 * Q + quadidx)) m ;;
    m <- bin add (padd c idx21) (padd b quadidx) (padd b (2 * Q + quadidx)) m ;;
    t2 <- rdp m (padd temp2 quadidx) ;; b0 <- rdp m (padd b quadidx) ;;
    b1 <- rdp m (padd b (Q + quadidx)) ;; t3 <- rdp m (padd temp3 quadidx) ;;
    wrp m (padd c idx22) (add (add (sub t2 b0) b1) t3)) m) m.

(** matmul.ipp:48-170. The recursion halves [dimPad], so [dimPad] levels of fuel suffice. *)
Fixpoint strassen (thr fuel : nat) (c a b : ptr) (dimPad : nat) (m : mem T) {struct fuel} : res (mem T) :=
  if dimPad <=? thr then cubic_mul c a b dimPad dimPad dimPad dimPad 1 1 dimPad m
  else
    match fuel with
    | 0 => UB
    | S fuel' =>
      let q := dimPad / 2 in
      let Q := q * q in
      let '(m, temp) := newp fresh m Q in
      let '(m, temp2) := newp fresh m Q in
      let '(m, temp3) := newp fresh m Q in
      m <- strassen_iter1 c a temp temp2 dimPad q Q m ;;
      m <- strassen_iter2 a b dimPad q Q m ;;
      m <- strassen_iter3 c a b Q m ;;
      m <- strassen thr fuel' temp3 temp (padd b (2 * Q)) q m ;;
      m <- strassen thr fuel' temp temp2 (padd b (3 * Q)) q m ;;
      m <- strassen thr fuel' temp2 b (padd b Q) q m ;;
      m <- strassen thr fuel' b (padd c Q) a q m ;;
      m <- strassen thr fuel' (padd b Q) c (padd a Q) q m ;;
      m <- strassen thr fuel' (padd b (2 * Q)) (padd c (2 * Q)) (padd a (2 * Q)) q m ;;
      m <- strassen thr fuel' (padd b (3 * Q)) (padd c (3 * Q)) (padd a (3 * Q)) q m ;;
      m <- strassen_iter4 c b temp temp2 temp3 dimPad q Q m ;;
      m <- delp m temp ;;
      m <- delp m temp2 ;;
      delp m temp3
    end.

(** matmul.ipp:172-241: result shape of matmul from the two argument shapes *)
Definition matmul_shaper (al bl : shape) : res shape :=
  let rank1 := length al in
  let rank2 := length bl in
  ax <- (if 0 <? rank1 then rd al 0 else Ok 0) ;;
  ay <- (if 1 <? rank1 then rd al 1 else Ok 1) ;;
  bx <- (if 0 <? rank2 then rd bl 0 else Ok 0) ;;
  by_ <- (if 1 <? rank2 then rd bl 1 else Ok 1) ;;
  let minend := Nat.min rank1 rank2 in
  beyond2d <-
    (if 2 <? minend then
       (* std::equal over [2, minend) *)
       if forallb (fun p => fst p =? snd p)
            (combine (skipn 2 (firstn minend al)) (skipn 2 (firstn minend bl))) then
         if forallb (fun e => e =? 1) (skipn minend (if rank2 <? rank1 then al else bl)) then
           Ok (skipn 2 (firstn minend al))
         else Throw
       else Throw
     else Ok []) ;;
  if ax =? by_ then Ok ([bx; ay] ++ beyond2d) else Throw.

(** [std::memset(p, 0, n * sizeof(T))] *)
Definition memset0p (p : ptr) (n : nat) (m : mem T) : res (mem T) :=
  for_ n (fun i m => wrp m (padd p i) zero) m.

(** matmul.ipp:305-343: one matrix of the batch through Strassen *)
Definition matmul_strassen_one (thr : nat) (rawc rawa rawb : ptr) (dim_x dim_y dim_z dim_pad : nat) (m : mem T) : res (mem T) :=
  let n_mat := dim_pad * dim_pad in
  let '(m, out) := newp fresh m n_mat in
  let '(m, a) := newp fresh m n_mat in
  let '(m, b) := newp fresh m n_mat in
  m <- memset0p a n_mat m ;;
  m <- memset0p b n_mat m ;;
  m <- for_ dim_y (fun y m => for_ dim_z (fun z m =>
         cpy (padd a (z + dim_pad * y)) (padd rawa (dim_z * y + z)) m) m) m ;;
  m <- for_ dim_z (fun z m => for_ dim_x (fun x m =>
         cpy (padd b (x + dim_pad * z)) (padd rawb (x + dim_x * z)) m) m) m ;;
  m <- strassen thr dim_pad out a b dim_pad m ;;
  m <- for_ dim_y (fun y m => for_ dim_x (fun x m =>
         cpy (padd rawc (y * dim_x + x)) (padd out (y * dim_pad + x)) m) m) m ;;
  m <- delp m out ;;
  m <- delp m a ;;
  delp m b.

(** matmul.ipp:283-356: forward of matmul; [use_strassen] says whether ENABLE_STRASSEN was
    defined (CMakeLists.txt:71) *)
Definition matmul_fwd (use_strassen : bool) (thr : nat) (alist blist : shape) (dest srca srcb : ptr) (m : mem T) : res (mem T) :=
  dim_z <- rd alist 0 ;;
  dim_y <- (if length alist <? 2 then Ok 1 else rd alist 1) ;;
  dim_x <- rd blist 0 ;;
  (if dim_z * dim_y =? 0 then UB else
   let beyond2d := n_elems alist / (dim_z * dim_y) in
   let dim_pad := min_pad thr (Nat.max (Nat.max dim_x dim_y) dim_z) in
   for_ beyond2d (fun i m =>
     let rawa := padd srca (i * (dim_z * dim_y)) in
     let rawb := padd srcb (i * (dim_x * dim_z)) in
     let rawc := padd dest (i * (dim_x * dim_y)) in
     if use_strassen && (thr <? dim_pad) then
       matmul_strassen_one thr rawc rawa rawb dim_x dim_y dim_z dim_pad m
     else
       cubic_mul rawc rawa rawb dim_x dim_y dim_z dim_z 1 1 dim_x m) m).
End Mul.
