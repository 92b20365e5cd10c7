(** Model of the leaf nodes: constants, placeholders and variables
    (app/tenncor/src/graph/leaf and the assign_func handler), over the tensor heap of
    TensorModel.v. The input of a variable updater that is not a constant is any node
    with a tensor behind it: another leaf, or an object of kind [KTensor] standing for a
    free tensor or the current result of an operation. Notification of dependents is
    recorded in a log (what it triggers is modelled in ReactModel.v / EvalModel.v).
    Not modelled here: labels, destruction, moving and assigning of leaves (LeafMoveModel). *)
From Verif Require Import Common ShapeModel FitModel TensorModel.

Section Leaf.
Context {T : Type} (zero junk : T) (add sub : T -> T -> T) (eqb : T -> T -> bool).

(** include/tensor/tensor_handler.hpp initializer: the value written at position k
    (const_init ignores k; a random initializer is an arbitrary sequence) *)
Local Notation initializer := (nat -> T).

(** the dynamic type of the node behind an index *)
Inductive kind := KTensor | KConst | KPlace | KVar (init_ : option initializer).

(** include/graph/leaf/ileaf.hpp: data_ is the tensor with the same index in [l_w],
    is_init_ is the flag *)
Record leaf := mkLeaf { l_kind : kind; l_init : bool }.

(** the function passed to assigner_ *)
Inductive asg := ASet | AAdd | ASub.
(** tensor_handler.hpp default argument [](const T&, const T& e2) { return e2; };
    variable.ipp:132, 176 *)
Definition asg_fun (a : asg) : T -> T -> T :=
  match a with ASet => fun _ y => y | AAdd => add | ASub => sub end.

(** variable_updater closures (variable.ipp:85-187) by what they capture *)
Inductive updater :=
| UNop                                      (* [](bool) {} *)
| UData (a : asg) (i : nat) (d : list T)    (* [this, data] *)
| UNode (a : asg) (i j : nat).              (* [this, input] *)

Record lworld := mkLW { l_w : world T; l_fs : list leaf; l_us : list updater; l_log : list nat }.

(** tensor_handler.ipp:28-40 get_raw *)
Definition get_raw (t : tensor) : res nat :=
  _ <- assert_ (is_alloc t) ;;
  match raw t with None => UB | Some p => Ok p end.

(** tensor_handler.ipp:102-115 assign_func::operator()(out, arg tensor, f) *)
Definition assign_tensor (h : heap T) (out arg : tensor) (f : T -> T -> T) : res (heap T) :=
  let n := t_n_elems arg in
  _ <- assert_ (n =? n_elems (get_shape out)) ;;
  dest <- get_raw out ;;
  src <- get_raw arg ;;
  for_ n (fun i h =>
    db <- hget h dest ;; sb <- hget h src ;;
    x <- rd db i ;; y <- rd sb i ;;
    db' <- wr db i (f x y) ;; Ok (hput h dest db')) h.

(** tensor_handler.ipp:117-130 assign_func::operator()(out, indata vector, f) *)
Definition assign_vector (h : heap T) (out : tensor) (indata : list T) (f : T -> T -> T) : res (heap T) :=
  let n := n_elems (get_shape out) in
  _ <- assert_ (n <=? length indata) ;;
  dest <- get_raw out ;;
  for_ n (fun i h =>
    db <- hget h dest ;;
    x <- rd db i ;; y <- rd indata i ;;
    db' <- wr db i (f x y) ;; Ok (hput h dest db')) h.

(** tensor_handler.ipp:210-213 initializer::operator(), 246-251 const_init::calc_data *)
Definition run_init (h : heap T) (out : tensor) (ini : initializer) : res (heap T) :=
  dest <- get_raw out ;;
  for_ (n_elems (get_shape out)) (fun i h =>
    db <- hget h dest ;; db' <- wr db i (ini i) ;; Ok (hput h dest db')) h.

(** constant.ipp:62-72 constant(scalar) *)
Definition const_scalar (h : heap T) (v : T) : res (heap T * tensor) :=
  let '(h1, t1) := t_new junk h [1] in
  r <- t_allocate zero junk h1 t1 ;;
  let '(h2, t2, _) := r in
  h3 <- run_init h2 t2 (fun _ => v) ;; Ok (h3, t2).

(** constant.ipp:74-102 constant(raw, shape) *)
Definition const_vector (h : heap T) (data : list T) (s : shape) : res (heap T * tensor) :=
  let '(h1, t1) := t_new junk h s in
  let rawn := length data in
  r <- (if is_alloc t1 then Ok (h1, t1, data)
        else
          let data := if rawn <? n_known s then data ++ repeat zero (n_known s - rawn) else data in
          g <- loosely_guess_shape (allowed_shape t1) (length data) ;;
          match g with
          | None => Abort
          | Some propershape =>
            a <- t_allocate_shape zero junk h1 t1 propershape ;;
            let '(h2, t2, _) := a in Ok (h2, t2, data)
          end) ;;
  let '(h3, t3, data) := r in
  _ <- assert_ (is_alloc t3) ;;
  let n := t_n_elems t3 in
  let data := if rawn <? n then data ++ repeat zero (n - rawn) else data in
  h4 <- assign_vector h3 t3 data (fun _ y => y) ;; Ok (h4, t3).

(** constant.ipp:139-150 const_axis: the vector handed to constant::get *)
Definition const_axis_data (dimension index : nat) (scalar : T) (s : shape) : res (list T) :=
  iterate s (fun coord idx data =>
    c <- rd coord dimension ;;
    if c =? index then wr data idx scalar else Ok data) (repeat zero (n_elems s)).
Definition const_axis (h : heap T) (dimension index : nat) (scalar : T) (s : shape) : res (heap T * tensor) :=
  data <- const_axis_data dimension index scalar s ;; const_vector h data s.

(** constant.ipp:125-130 operator == *)
Definition const_eqb (h : heap T) (t : tensor) (scalar : T) : res bool :=
  d <- t_expose h t ;;
  match d with [x] => Ok (eqb scalar x) | _ => Ok false end.

(** placeholder.ipp:56-82 operator = (vector) *)
Definition ph_assign (h : heap T) (t : tensor) (data : list T) : res (heap T * tensor) :=
  _ <- assert_ (t_compat_data t (length data)) ;;
  r <- (if is_alloc t then Ok (h, t)
        else
          g <- guess_shape (allowed_shape t) (length data) ;;
          match g with
          | None => Throw
          | Some cand => a <- t_allocate_shape zero junk h t cand ;; Ok (fst a)
          end) ;;
  let '(h1, t1) := r in
  h2 <- assign_vector h1 t1 data (fun _ y => y) ;; Ok (h2, t1).

(** variable.ipp:49-65 initialize() *)
Definition var_initialize (h : heap T) (t : tensor) (ini : option initializer) : res (heap T * tensor) :=
  match ini with
  | None => Abort
  | Some f =>
    r <- (if is_alloc t then Ok (h, t)
          else
            a <- t_allocate zero junk h t ;;
            let '(h1, t1, ok) := a in if ok then Ok (h1, t1) else Throw) ;;
    let '(h1, t1) := r in
    h2 <- run_init h1 t1 f ;; Ok (h2, t1)
  end.

(** variable.ipp:67-84 initialize(shape) *)
Definition var_initialize_shape (h : heap T) (t : tensor) (ini : option initializer) (s : shape) : res (heap T * tensor) :=
  match ini with
  | None => Abort
  | Some f =>
    a <- t_allocate_shape zero junk h t s ;;
    let '(h1, t1, ok) := a in
    if ok then h2 <- run_init h1 t1 f ;; Ok (h2, t1) else Throw
  end.

(** ---- histories ---- *)

Inductive lop :=
| LTensor (s : shape) (d : list T)        (* a tensor object of shape s holding d, length d = n_elems s *)
| LConstScalar (v : T)                    (* constant<T>::get(v) *)
| LConst (d : list T) (s : shape)         (* constant<T>::get(d, s) *)
| LPlace (s : shape)                      (* placeholder(s) *)
| LVarScalar (v : T)                      (* variable(v) *)
| LVar (s : shape) (ini : option initializer)   (* variable(s) / variable(s, init) *)
| LSetInit (i : nat) (ini : initializer)  (* set_initializer *)
| LFeed (i : nat) (d : list T)            (* placeholder = vector *)
| LFeedTensor (i j : nat)                 (* placeholder = tensor j *)
| LInit (i : nat)                         (* initialize() *)
| LInitShape (i : nat) (s : shape)        (* initialize(s) *)
| LUpdater (a : asg) (i j : nat)          (* i.assign(j) / assign_add / assign_sub *)
| LRun (u : nat) (notify : bool)          (* call an updater made earlier *)
| LClone (i : nat).                       (* clone() of a placeholder or variable *)

Definition lf (W : lworld) (i : nat) : res leaf := rd (l_fs W) i.
Definition lnew (W : lworld) (h : heap T) (t : tensor) (k : kind) (b : bool) : lworld :=
  mkLW (TensorModel.add (l_w W) h t) (l_fs W ++ [mkLeaf k b]) (l_us W) (l_log W).
Definition lset (W : lworld) (h : heap T) (i : nat) (t : tensor) (k : kind) (b : bool) : lworld :=
  mkLW (put (l_w W) h i (Some t)) (set_nth i (mkLeaf k b) (l_fs W)) (l_us W) (l_log W).
Definition lnotify (W : lworld) (i : nat) : lworld := mkLW (l_w W) (l_fs W) (l_us W) (l_log W ++ [i]).
Definition lheap (W : lworld) : heap T := w_heap (l_w W).
Definition ladd_upd (W : lworld) (u : updater) : lworld := mkLW (l_w W) (l_fs W) (l_us W ++ [u]) (l_log W).

(** ileaf.ipp:126-134 get_eval, 78-82 eval *)
Definition leaf_eval (W : lworld) (j : nat) : res (option tensor) :=
  f <- lf W j ;; t <- lookup (l_w W) j ;; Ok (if l_init f then Some t else None).

(** variable.ipp:85-187 the three functions making updaters. For a constant the data is
    read when the updater is made; for add and sub a constant equal to scalar 0 gives a
    closure that does nothing *)
Definition make_updater (W : lworld) (a : asg) (i j : nat) : res updater :=
  f <- lf W j ;; t <- lookup (l_w W) j ;;
  match l_kind f with
  | KConst =>
    z <- (match a with ASet => Ok false | _ => const_eqb (lheap W) t zero end) ;;
    if z then Ok UNop
    else d <- t_expose (lheap W) t ;; Ok (UData a i d)
  | _ => Ok (UNode a i j)
  end.

(** variable.ipp bodies of the closures. Neither form sets is_init_ *)
Definition run_updater (W : lworld) (u : updater) (notify : bool) : res lworld :=
  let fin i h :=
    let W' := mkLW (mkW h (w_ts (l_w W))) (l_fs W) (l_us W) (l_log W) in
    if notify then lnotify W' i else W' in
  match u with
  | UNop => Ok W
  | UData a i d =>
    out <- lookup (l_w W) i ;;
    h <- assign_vector (lheap W) out d (asg_fun a) ;; Ok (fin i h)
  | UNode a i j =>
    out <- lookup (l_w W) i ;;
    inp <- leaf_eval W j ;;
    match inp with
    | None => Abort
    | Some t => h <- assign_tensor (lheap W) out t (asg_fun a) ;; Ok (fin i h)
    end
  end.

Definition lstep (W : lworld) (o : lop) : res lworld :=
  let h := lheap W in
  match o with
  | LTensor s d =>
    let '(h1, t1) := t_new junk h s in
    h2 <- assign_vector h1 t1 d (fun _ y => y) ;; Ok (lnew W h2 t1 KTensor true)
  | LConstScalar v => r <- const_scalar h v ;; Ok (lnew W (fst r) (snd r) KConst true)
  | LConst d s => r <- const_vector h d s ;; Ok (lnew W (fst r) (snd r) KConst true)
  | LPlace s => let '(h1, t1) := t_new junk h s in Ok (lnew W h1 t1 KPlace false)
  | LVarScalar v => (* variable.ipp:14-21 *)
    let '(h1, t1) := t_new junk h [1] in
    r <- var_initialize h1 t1 (Some (fun _ => v)) ;;
    Ok (lnotify (lnew W (fst r) (snd r) (KVar (Some (fun _ => v))) true) (length (l_fs W)))
  | LVar s ini => let '(h1, t1) := t_new junk h s in Ok (lnew W h1 t1 (KVar ini) false)
  | LSetInit i ini => (* variable.ipp:39-47 *)
    f <- lf W i ;; t <- lookup (l_w W) i ;;
    match l_kind f with
    | KVar _ => Ok (lset W h i t (KVar (Some ini)) (l_init f))
    | _ => UB
    end
  | LFeed i d =>
    f <- lf W i ;; t <- lookup (l_w W) i ;;
    match l_kind f with
    | KPlace => r <- ph_assign h t d ;; Ok (lnotify (lset W (fst r) i (snd r) KPlace true) i)
    | _ => UB
    end
  | LFeedTensor i j => (* placeholder.ipp:84-92: *data_ = std::move(data) *)
    fi <- lf W i ;; fj <- lf W j ;; ti <- lookup (l_w W) i ;; tj <- lookup (l_w W) j ;;
    match l_kind fi, l_kind fj with
    | KPlace, KTensor =>
      r <- t_move_helper h ti tj ;;
      let '(h1, ti', tj') := r in
      Ok (lnotify (lset (lset W h1 i ti' KPlace true) h1 j tj' KTensor true) i)
    | _, _ => UB
    end
  | LInit i =>
    f <- lf W i ;; t <- lookup (l_w W) i ;;
    match l_kind f with
    | KVar ini => r <- var_initialize h t ini ;; Ok (lnotify (lset W (fst r) i (snd r) (KVar ini) true) i)
    | _ => UB
    end
  | LInitShape i s =>
    f <- lf W i ;; t <- lookup (l_w W) i ;;
    match l_kind f with
    | KVar ini => r <- var_initialize_shape h t ini s ;; Ok (lnotify (lset W (fst r) i (snd r) (KVar ini) true) i)
    | _ => UB
    end
  | LUpdater a i j =>
    f <- lf W i ;;
    match l_kind f with
    | KVar _ => u <- make_updater W a i j ;; Ok (ladd_upd W u)
    | _ => UB
    end
  | LRun u notify => x <- rd (l_us W) u ;; run_updater W x notify
  | LClone i => (* ileaf.ipp:136-151 copy_helper; ivariable.ipp copy_helper clones init_ *)
    f <- lf W i ;; t <- lookup (l_w W) i ;;
    match l_kind f with
    | KPlace | KVar _ =>
      r <- t_copy_helper junk h blank t (negb (l_init f)) ;;
      Ok (lnew W (fst r) (snd r) (l_kind f) (l_init f))
    | _ => UB
    end
  end.

Fixpoint lrun (W : lworld) (ops : list lop) : res lworld :=
  match ops with
  | [] => Ok W
  | o :: os => W' <- lstep W o ;; lrun W' os
  end.

Definition linit : lworld := mkLW init [] [] [].

End Leaf.
Arguments mkLeaf {T}. Arguments l_kind {T}. Arguments l_init {T}.
Arguments l_w {T}. Arguments l_fs {T}. Arguments l_us {T}. Arguments l_log {T}.
Arguments KTensor {T}. Arguments KConst {T}. Arguments KPlace {T}. Arguments KVar {T}.
