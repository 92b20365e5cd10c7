(** Model of tensor<T>, app/tenncor/src/tensor/tensor.ipp, over an explicit heap.
    Simplifications: one allocator (default_alloc) that always succeeds; freshly
    allocated memory holds the value [junk] (any value; instantiate T with an option
    type to see indeterminate cells); a moved-from tensorshape is empty. *)
From Verif Require Import Common ShapeModel FitModel.

(** heap: address -> live buffer, or None once released. Addresses are never reused,
    so releasing or touching a released buffer is detected. *)
Definition heap (T : Type) := list (option (list T)).

(** include/memory/iallocator.hpp:53-67 allocate *)
Definition halloc {T} (junk : T) (h : heap T) (n : nat) : heap T * nat :=
  (h ++ [Some (repeat junk n)], length h).

Definition hget {T} (h : heap T) (p : nat) : res (list T) :=
  match nth_error h p with
  | Some (Some b) => Ok b
  | _ => UB
  end.

Definition hput {T} (h : heap T) (p : nat) (b : list T) : heap T := set_nth p (Some b) h.

(** src/memory/default_alloc.cpp:33-36 free; iallocator.hpp:70-78 ignores nullptr *)
Definition hfree {T} (h : heap T) (p : option nat) : res (heap T) :=
  match p with
  | None => Ok h
  | Some p => _ <- hget h p ;; Ok (set_nth p None h)
  end.

(** include/tensor/tensor.hpp:198-216: raw_data_, alloc_shape_, allowed_shape_ *)
Record tensor := mkT { raw : option nat; alloc_shape : shape; allowed_shape : shape }.

(** state of a tensor before its constructor's body: raw_data_ = nullptr (tensor.hpp:198) *)
Definition blank : tensor := mkT None [] [].

(** tensor.ipp:329-332 is_alloc *)
Definition is_alloc (t : tensor) : bool :=
  is_fully_defined (alloc_shape t) && match raw t with Some _ => true | None => false end.

(** tensor.ipp:143-150 get_shape *)
Definition get_shape (t : tensor) : shape :=
  if is_alloc t then alloc_shape t else allowed_shape t.

(** tensor.ipp:153-160 n_elems *)
Definition t_n_elems (t : tensor) : nat :=
  match raw t with None => 0 | Some _ => n_elems (alloc_shape t) end.

(** tensor.ipp:79-90 tensor(shape) *)
Definition t_new {T} (junk : T) (h : heap T) (s : shape) : heap T * tensor :=
  if is_fully_defined s then
    let '(h', p) := halloc junk h (n_elems s) in (h', mkT (Some p) s s)
  else (h, mkT None [] s).

(** tensor.ipp:72-76 tensor(scalar) *)
Definition t_new_scalar {T} (junk : T) (h : heap T) (v : T) : res (heap T * tensor) :=
  let '(h1, t) := t_new junk h [1] in
  match raw t with
  | None => UB
  | Some p => b <- hget h1 p ;; b' <- wr b 0 v ;; Ok (hput h1 p b', t)
  end.

(** tensor.ipp:93-96 ~tensor *)
Definition t_destroy {T} (h : heap T) (t : tensor) : res (heap T) := hfree h (raw t).

(** tensor.ipp:452-480 allocate(shape) *)
Definition t_allocate_shape {T} (zero junk : T) (h : heap T) (t : tensor) (s : shape) : res (heap T * tensor * bool) :=
  c1 <- is_compatible_with s (alloc_shape t) ;;
  if is_alloc t && c1 then Ok (h, t, false)
  else
    c2 <- is_compatible_with s (allowed_shape t) ;;
    if c2 && is_fully_defined s then
      if is_alloc t then
        match raw t with
        | None => UB
        | Some p =>
          let '(h1, q) := halloc junk h (n_elems s) in
          temp <- hget h1 q ;;
          src <- hget h1 p ;;
          temp' <- fit_toshape zero temp s src (alloc_shape t) ;;
          h2 <- hfree (hput h1 q temp') (Some p) ;;
          Ok (h2, mkT (Some q) s (allowed_shape t), true)
        end
      else
        let '(h1, q) := halloc junk h (n_elems s) in
        Ok (h1, mkT (Some q) s (allowed_shape t), true)
    else Ok (h, t, false).

(** tensor.ipp:420-436 allocate() *)
Definition t_allocate {T} (zero junk : T) (h : heap T) (t : tensor) : res (heap T * tensor * bool) :=
  if is_alloc t then Ok (h, t, false)
  else if is_fully_defined (alloc_shape t)
  then t_allocate_shape zero junk h t (alloc_shape t)
  else t_allocate_shape zero junk h t (allowed_shape t).

(** tensor.ipp:439-449 deallocate *)
Definition t_deallocate {T} (h : heap T) (t : tensor) : res (heap T * tensor * bool) :=
  if is_alloc t then
    h' <- hfree h (raw t) ;; Ok (h', mkT None [] (allowed_shape t), true)
  else Ok (h, t, false).

(** tensor.ipp:392-417 set_shape *)
Definition t_set_shape {T} (zero junk : T) (h : heap T) (t : tensor) (s : shape) : res (heap T * tensor) :=
  c <- is_compatible_with (allowed_shape t) s ;;
  let t := if negb c || negb (is_alloc t) then mkT (raw t) (alloc_shape t) s else t in
  c2 <- is_compatible_with s (alloc_shape t) ;;
  if is_alloc t && negb c2 then
    s' <- (if is_fully_defined s then Ok s
           else
             m <- merge_with (with_rank s (rank (alloc_shape t))) (alloc_shape t) ;;
             Ok (with_rank m (rank (allowed_shape t)))) ;;
    r <- t_allocate_shape zero junk h t s' ;;
    let '(h', t', _) := r in Ok (h', t')
  else Ok (h, t).

(** tensor.ipp:483-508 copy_from *)
Definition t_copy_from {T} (zero junk : T) (h : heap T) (t other : tensor) (s : shape) : res (heap T * tensor * bool) :=
  if is_alloc other && is_fully_defined s then
    c <- is_compatible_with (allowed_shape t) s ;;
    let allowed := if c then allowed_shape t else s in
    let '(h1, q) := halloc junk h (n_elems s) in
    temp <- hget h1 q ;;
    match raw other with
    | None => UB
    | Some po =>
      src <- hget h1 po ;;
      temp' <- fit_toshape zero temp s src (get_shape other) ;;
      h2 <- (if is_alloc t then hfree (hput h1 q temp') (raw t) else Ok (hput h1 q temp')) ;;
      Ok (h2, mkT (Some q) s allowed, true)
    end
  else Ok (h, t, false).

(** tensor.ipp:571-590 copy_helper (this <> &other) *)
Definition t_copy_helper {T} (junk : T) (h : heap T) (t other : tensor) (shapeonly : bool) : res (heap T * tensor) :=
  h1 <- hfree h (raw t) ;;
  if is_alloc other then
    let ns := n_elems (alloc_shape other) in
    let '(h2, q) := halloc junk h1 ns in
    if shapeonly then Ok (h2, mkT (Some q) (alloc_shape other) (allowed_shape other))
    else
      match raw other with
      | None => UB
      | Some po =>
        src <- hget h2 po ;; dst <- hget h2 q ;;
        dst' <- memcpy dst 0 src 0 ns ;;
        Ok (hput h2 q dst', mkT (Some q) (alloc_shape other) (allowed_shape other))
      end
  else Ok (h1, mkT None (alloc_shape other) (allowed_shape other)).

(** tensor.ipp:593-606 move_helper: returns (heap, this, other) *)
Definition t_move_helper {T} (h : heap T) (t other : tensor) : res (heap T * tensor * tensor) :=
  h1 <- hfree h (raw t) ;;
  Ok (h1, mkT (raw other) (alloc_shape other) (allowed_shape other), mkT None [] []).

(** tensor.ipp:342-351 get *)
Definition t_get {T} (h : heap T) (t : tensor) (coord : list nat) : res T :=
  raw_idx <- flat_idx (alloc_shape t) coord ;;
  if n_elems (alloc_shape t) <=? raw_idx then Throw
  else match raw t with
       | None => UB
       | Some p => b <- hget h p ;; rd b raw_idx
       end.

(** tensor.ipp:354-358 expose *)
Definition t_expose {T} (h : heap T) (t : tensor) : res (list T) :=
  _ <- assert_ (is_alloc t) ;;
  match raw t with
  | None => UB
  | Some p => b <- hget h p ;;
              if n_elems (alloc_shape t) <=? length b then Ok (firstn (n_elems (alloc_shape t)) b) else UB
  end.

(** the tensor_proto message: data bytes (here whole elements of T), allow_shape, alloc_shape *)
Record proto (T : Type) := mkP { p_data : list T; p_allow : shape; p_alloc : shape }.
Arguments mkP {T}. Arguments p_data {T}. Arguments p_allow {T}. Arguments p_alloc {T}.

(** tensor.ipp:361-375 serialize: None when the message is left untouched *)
Definition t_serialize {T} (h : heap T) (t : tensor) : res (option (proto T)) :=
  if is_alloc t then
    d <- t_expose h t ;; Ok (Some (mkP d (allowed_shape t) (alloc_shape t)))
  else Ok None.

(** tensor.ipp:511-540 from_proto. [ndebug] is whether the code is compiled with NDEBUG,
    in which case [assert(e)] does not evaluate [e]. *)
Definition t_from_proto {T} (ndebug : bool) (zero junk : T) (h : heap T) (t : tensor) (pr : proto T)
  : res (heap T * tensor * bool) :=
  _ <- (if ndebug then Ok tt else assert_ (length (p_alloc pr) =? length (p_allow pr))) ;;
  let t := mkT (raw t) (alloc_shape t) (p_allow pr) in
  c <- is_compatible_with (p_alloc pr) (allowed_shape t) ;;
  if negb c || negb (is_fully_defined (p_alloc pr)) then Ok (h, t, false)
  else
    r <- t_deallocate h t ;;
    let '(h1, t1, _) := r in
    let t2 := mkT (raw t1) (p_alloc pr) (allowed_shape t1) in
    r2 <- (if ndebug then Ok (h1, t2, true) else t_allocate zero junk h1 t2) ;;
    let '(h2, t3, ok) := r2 in
    _ <- assert_ ok ;;
    match raw t3 with
    | None => if length (p_data pr) =? 0 then Ok (h2, t3, true) else UB
    | Some p => b <- hget h2 p ;;
                b' <- memcpy b 0 (p_data pr) 0 (length (p_data pr)) ;;
                Ok (hput h2 p b', t3, true)
    end.

(** tensor.ipp:194-215 is_compatible_with(vector); [ndata] is the vector's size *)
Definition t_compat_data (t : tensor) (ndata : nat) : bool :=
  let my_shape := if is_alloc t then alloc_shape t else allowed_shape t in
  if is_fully_defined my_shape then ndata =? n_elems my_shape
  else let known := n_known my_shape in
       if 0 <? known then ndata mod known =? 0 else true.

(** tensor.ipp:218-231 is_loosely_compatible_with *)
Definition t_loosely_compat_data (t : tensor) (ndata : nat) : bool :=
  let my_shape := if is_alloc t then alloc_shape t else allowed_shape t in
  if is_fully_defined my_shape then ndata <=? n_elems my_shape else true.

(** tensor.ipp:253-270: loop replacing unknown dimensions by 1; returns
    (my_shape, first_undef, known) *)
Fixpoint scan_unknown (dims : shape) (i rank first_undef known : nat) : shape * nat * nat :=
  match dims with
  | [] => ([], first_undef, known)
  | d :: ds =>
    if d =? 0 then
      let fu := if i <? first_undef then i else first_undef in
      let '(ds', f, k) := scan_unknown ds (S i) rank fu known in (1 :: ds', f, k)
    else
      let '(ds', f, k) := scan_unknown ds (S i) rank first_undef (known * d) in (d :: ds', f, k)
  end.

(** tensor.ipp:234-282 guess_shape *)
Definition guess_shape (allowed : shape) (ndata : nat) : res (option shape) :=
  if is_fully_defined allowed then
    Ok (if n_elems allowed =? ndata then Some allowed else None)
  else if is_part_defined allowed then
    let '(my_shape, first_undef, known) := scan_unknown allowed 0 (length allowed) (length allowed) 1 in
    _ <- assert_ (0 <? known) ;;
    if ndata mod known =? 0 then
      s <- wr my_shape first_undef (ndata / known) ;; Ok (Some s)
    else Ok None
  else Ok (Some [ndata]).

(** tensor.ipp:285-323 loosely_guess_shape *)
Definition loosely_guess_shape (allowed : shape) (ndata : nat) : res (option shape) :=
  if is_fully_defined allowed then
    Ok (if ndata <=? n_elems allowed then Some allowed else None)
  else
    let '(my_shape, first_undef, known) := scan_unknown allowed 0 (length allowed) (length allowed) 1 in
    let v := ndata / known in
    let v := if ndata mod known =? 0 then v else S v in
    s <- wr my_shape first_undef v ;; Ok (Some s).

(** ---- histories over a set of tensors ---- *)

(** a program's tensors; None once destroyed *)
Record world (T : Type) := mkW { w_heap : heap T; w_ts : list (option tensor) }.
Arguments mkW {T}. Arguments w_heap {T}. Arguments w_ts {T}.

Inductive op (T : Type) : Type :=
| ONew (s : shape)                       (* tensor(shape) *)
| ONewScalar (v : T)                     (* tensor(scalar) *)
| OCopy (i : nat) (shapeonly : bool)     (* tensor(const tensor&, shapeonly) / clone *)
| OMove (i : nat)                        (* tensor(tensor&&) / move *)
| OAssign (i j : nat)                    (* ts[i] = ts[j] *)
| OAssignMove (i j : nat)                (* ts[i] = std::move(ts[j]) *)
| OSetShape (i : nat) (s : shape)
| OAllocate (i : nat)
| OAllocateShape (i : nat) (s : shape)
| ODeallocate (i : nat)
| OCopyFrom (i j : nat) (s : shape)      (* ts[i].copy_from(ts[j], s) *)
| OStore (i k : nat) (v : T)             (* a handler writing raw_data_[k], k < n_elems *)
| OFromProto (i : nat) (pr : proto T)
| ODestroy (i : nat).
Arguments ONew {T}. Arguments ONewScalar {T}. Arguments OCopy {T}. Arguments OMove {T}.
Arguments OAssign {T}. Arguments OAssignMove {T}. Arguments OSetShape {T}. Arguments OAllocate {T}.
Arguments OAllocateShape {T}. Arguments ODeallocate {T}. Arguments OCopyFrom {T}.
Arguments OStore {T}. Arguments OFromProto {T}. Arguments ODestroy {T}.

(** using a destroyed or non-existent object is the client's undefined behaviour *)
Definition lookup {T} (w : world T) (i : nat) : res tensor :=
  match nth_error (w_ts w) i with
  | Some (Some t) => Ok t
  | _ => UB
  end.

Definition put {T} (w : world T) (h : heap T) (i : nat) (t : option tensor) : world T :=
  mkW h (set_nth i t (w_ts w)).

Definition add {T} (w : world T) (h : heap T) (t : tensor) : world T :=
  mkW h (w_ts w ++ [Some t]).

Definition step {T} (zero junk : T) (w : world T) (o : op T) : res (world T) :=
  let h := w_heap w in
  match o with
  | ONew s => let '(h', t) := t_new junk h s in Ok (add w h' t)
  | ONewScalar v => r <- t_new_scalar junk h v ;; Ok (add w (fst r) (snd r))
  | OCopy i so => t <- lookup w i ;; r <- t_copy_helper junk h blank t so ;; Ok (add w (fst r) (snd r))
  | OMove i => t <- lookup w i ;; r <- t_move_helper h blank t ;;
      let '(h', t', o') := r in Ok (add (put w h' i (Some o')) h' t')
  | OAssign i j => ti <- lookup w i ;; tj <- lookup w j ;;
      if i =? j then Ok w
      else r <- t_copy_helper junk h ti tj false ;; Ok (put w (fst r) i (Some (snd r)))
  | OAssignMove i j => ti <- lookup w i ;; tj <- lookup w j ;;
      if i =? j then Ok w
      else r <- t_move_helper h ti tj ;;
        let '(h', t', o') := r in Ok (put (put w h' i (Some t')) h' j (Some o'))
  | OSetShape i s => t <- lookup w i ;; r <- t_set_shape zero junk h t s ;;
      Ok (put w (fst r) i (Some (snd r)))
  | OAllocate i => t <- lookup w i ;; r <- t_allocate zero junk h t ;;
      Ok (put w (fst (fst r)) i (Some (snd (fst r))))
  | OAllocateShape i s => t <- lookup w i ;; r <- t_allocate_shape zero junk h t s ;;
      Ok (put w (fst (fst r)) i (Some (snd (fst r))))
  | ODeallocate i => t <- lookup w i ;; r <- t_deallocate h t ;;
      Ok (put w (fst (fst r)) i (Some (snd (fst r))))
  | OCopyFrom i j s => ti <- lookup w i ;; tj <- lookup w j ;; r <- t_copy_from zero junk h ti tj s ;;
      Ok (put w (fst (fst r)) i (Some (snd (fst r))))
  | OStore i k v => t <- lookup w i ;;
      match raw t with
      | None => UB
      | Some p => b <- hget h p ;; b' <- wr b k v ;; Ok (mkW (hput h p b') (w_ts w))
      end
  | OFromProto i pr => t <- lookup w i ;; r <- t_from_proto false zero junk h t pr ;;
      Ok (put w (fst (fst r)) i (Some (snd (fst r))))
  | ODestroy i => t <- lookup w i ;; h' <- t_destroy h t ;; Ok (put w h' i None)
  end.

Fixpoint run {T} (zero junk : T) (w : world T) (ops : list (op T)) : res (world T) :=
  match ops with
  | [] => Ok w
  | o :: os => w' <- step zero junk w o ;; run zero junk w' os
  end.

Definition init {T} : world T := mkW [] [].
