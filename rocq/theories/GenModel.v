(** Model of generator<T>, app/tenncor/src/graph/connector/immutable/generator.ipp: a node
    that fills a tensor of its dependency's shape by an initializer, over the tensor heap of
    TensorModel.v. Simplifications: a dependency is the pair it is asked for (its shape, and
    whether its status is good), which may change at any time; which notifications call
    [update] is not fixed (it may be called at any time); subscriptions are reduced to the
    one dependency pointer, and who deletes a generator and when is the matter of
    ReactModel.v; an initializer is an identity, and what it writes is an arbitrary
    function [draw] of the identity, of how many fills happened before, and of the position. *)
From Verif Require Import Common ShapeModel FitModel TensorModel LeafModel.

(** include/graph/connector/immutable/generator.hpp:118-122 init_, data_ (owned pointers;
    here indices of objects) and dependencies_[0] *)
Record gen := mkG { g_dep : option nat; g_init : option nat; g_data : option nat }.

Section Gen.
Context {T : Type} (zero junk : T) (draw : nat -> nat -> nat -> T).

(** the objects of a program: tensors, initializers (None once deleted), generators (None
    once deleted), dependencies (shape and status), how many fills happened, and which
    generators notified their observers, in order *)
Record gworld := mkGW { gw_w : world T; gw_inits : list (option nat); gw_gens : list (option gen);
  gw_deps : list (shape * bool); gw_calls : nat; gw_log : list nat }.

Definition ginit : gworld := mkGW init [] [] [] 0 [].

(** an initializer object that is alive *)
Definition iget (inits : list (option nat)) (k : nat) : res nat :=
  match nth_error inits k with Some (Some id) => Ok id | _ => UB end.

(** generator.ipp:206-209, 228-231, 246: if (init_) delete init_ *)
Definition idel (inits : list (option nat)) (o : option nat) : res (list (option nat)) :=
  match o with None => Ok inits | Some k => _ <- iget inits k ;; Ok (set_nth k None inits) end.

(** generator.ipp:202-205, 224-227, 247: if (data_) delete data_ *)
Definition ddel (w : world T) (o : option nat) : res (world T) :=
  match o with None => Ok w | Some k => step zero junk w (ODestroy k) end.

(** generator.ipp:243-250 clean_up *)
Definition clean_up (w : world T) (inits : list (option nat)) (g : gen) : res (world T * list (option nat) * gen) :=
  inits <- idel inits (g_init g) ;; w <- ddel w (g_data g) ;; Ok (w, inits, mkG (g_dep g) None None).

(** generator.ipp:199-219 copy_helper *)
Definition copy_helper (w : world T) (inits : list (option nat)) (g other : gen) : res (world T * list (option nat) * gen) :=
  w <- ddel w (g_data g) ;; inits <- idel inits (g_init g) ;;
  ri <- (match g_init other with
         | None => Ok (inits, g_init g)
         | Some k => id <- iget inits k ;; Ok (inits ++ [Some id], Some (length inits))
         end) ;;
  rd <- (match g_data other with
         | None => Ok (w, g_data g)
         | Some k => w' <- step zero junk w (OCopy k false) ;; Ok (w', Some (length (w_ts w)))
         end) ;;
  Ok (fst rd, fst ri, mkG (g_dep g) (snd ri) (snd rd)).

(** generator.ipp:221-241 move_helper: the other generator keeps its (moved-from) tensor and
    initializer objects *)
Definition move_helper (w : world T) (inits : list (option nat)) (g other : gen) : res (world T * list (option nat) * gen) :=
  w <- ddel w (g_data g) ;; inits <- idel inits (g_init g) ;;
  ri <- (match g_init other with
         | None => Ok (inits, g_init g)
         | Some k => id <- iget inits k ;; Ok (inits ++ [Some id], Some (length inits))
         end) ;;
  rd <- (match g_data other with
         | None => Ok (w, g_data g)
         | Some k => w' <- step zero junk w (OMove k) ;; Ok (w', Some (length (w_ts w)))
         end) ;;
  Ok (fst rd, fst ri, mkG (g_dep g) (snd ri) (snd rd)).

(** a generator that is alive *)
Definition gget (W : gworld) (i : nat) : res gen :=
  match nth_error (gw_gens W) i with Some (Some g) => Ok g | _ => UB end.

(** ( *init_)( *data_): tensor_handler.ipp:210-213 *)
Definition fill (W : gworld) (g : gen) (k : nat) : res (world T) :=
  match g_init g with
  | None => UB
  | Some n =>
    id <- iget (gw_inits W) n ;; t <- lookup (gw_w W) k ;;
    h <- run_init (w_heap (gw_w W)) t (draw id (gw_calls W)) ;; Ok (mkW h (w_ts (gw_w W)))
  end.

(** generator.ipp:105-138 update. [dependencies_[0]] of an empty vector is undefined *)
Definition update (W : gworld) (i : nat) : res gworld :=
  g <- gget W i ;;
  match g_dep g with
  | None => UB
  | Some j =>
    d <- rd (gw_deps W) j ;;
    let '(s, good) := d in
    if negb good || negb (is_fully_defined s) then Ok W
    else
      let finish w g :=
        w' <- fill (mkGW w (gw_inits W) (gw_gens W) (gw_deps W) (gw_calls W) (gw_log W)) g
                (match g_data g with Some k => k | None => 0 end) ;;
        Ok (mkGW w' (gw_inits W) (set_nth i (Some g) (gw_gens W)) (gw_deps W) (S (gw_calls W)) (gw_log W ++ [i])) in
      match g_data g with
      | None =>
        w <- step zero junk (gw_w W) (ONew s) ;;
        finish w (mkG (g_dep g) (g_init g) (Some (length (w_ts (gw_w W)))))
      | Some k =>
        t <- lookup (gw_w W) k ;;
        c <- is_compatible_with (get_shape t) s ;;
        if c then Ok W
        else w <- step zero junk (gw_w W) (OSetShape k s) ;; finish w g
      end
  end.

Inductive gop :=
| EDep (s : shape) (good : bool)             (* a new node to depend on *)
| ESet (j : nat) (s : shape) (good : bool)   (* that node changes *)
| EGet (j id : nat)                          (* generator<T>::get(dep, init) *)
| EUpdate (i : nat)                          (* update(...), as a notification of the dependency does *)
| EClone (i : nat)                           (* clone() *)
| EMove (i : nat)                            (* move() *)
| EAssign (i k : nat)                        (* *i = *k *)
| EMoveAssign (i k : nat)                    (* *i = std::move( *k) *)
| EDelete (i : nat).                         (* ~generator *)

Definition gstep (W : gworld) (e : gop) : res gworld :=
  match e with
  | EDep s good => Ok (mkGW (gw_w W) (gw_inits W) (gw_gens W) (gw_deps W ++ [(s, good)]) (gw_calls W) (gw_log W))
  | ESet j s good => _ <- rd (gw_deps W) j ;;
      Ok (mkGW (gw_w W) (gw_inits W) (gw_gens W) (set_nth j (s, good) (gw_deps W)) (gw_calls W) (gw_log W))
  | EGet j id => (* generator.ipp:19-24, 140-146 *)
      _ <- rd (gw_deps W) j ;;
      update (mkGW (gw_w W) (gw_inits W ++ [Some id]) (gw_gens W ++ [Some (mkG (Some j) (Some (length (gw_inits W))) None)])
                (gw_deps W) (gw_calls W) (gw_log W)) (length (gw_gens W))
  | EUpdate i => update W i
  | EClone i => (* generator.ipp:26-30, 148-153; iobserver.cpp: the copy depends on the same subjects *)
      o <- gget W i ;;
      r <- copy_helper (gw_w W) (gw_inits W) (mkG (g_dep o) None None) o ;;
      let '(w, inits, g) := r in
      Ok (mkGW w inits (gw_gens W ++ [Some g]) (gw_deps W) (gw_calls W) (gw_log W))
  | EMove i => (* generator.ipp:32-36, 155-160; iobserver.cpp: the moved-from object depends on nothing *)
      o <- gget W i ;;
      r <- move_helper (gw_w W) (gw_inits W) (mkG (g_dep o) None None) o ;;
      let '(w, inits, g) := r in
      Ok (mkGW w inits (set_nth i (Some (mkG None (g_init o) (g_data o))) (gw_gens W) ++ [Some g]) (gw_deps W) (gw_calls W) (gw_log W))
  | EAssign i k => (* generator.ipp:38-49 *)
      g <- gget W i ;; o <- gget W k ;;
      if i =? k then Ok W
      else
        c <- clean_up (gw_w W) (gw_inits W) (mkG (g_dep o) (g_init g) (g_data g)) ;;
        let '(w, inits, g) := c in
        r <- copy_helper w inits g o ;;
        let '(w, inits, g) := r in
        Ok (mkGW w inits (set_nth i (Some g) (gw_gens W)) (gw_deps W) (gw_calls W) (gw_log W ++ [i]))
  | EMoveAssign i k => (* generator.ipp:51-62 *)
      g <- gget W i ;; o <- gget W k ;;
      if i =? k then Ok W
      else
        c <- clean_up (gw_w W) (gw_inits W) (mkG (g_dep o) (g_init g) (g_data g)) ;;
        let '(w, inits, g) := c in
        r <- move_helper w inits g o ;;
        let '(w, inits, g) := r in
        Ok (mkGW w inits (set_nth k (Some (mkG None (g_init o) (g_data o))) (set_nth i (Some g) (gw_gens W)))
              (gw_deps W) (gw_calls W) (gw_log W ++ [i]))
  | EDelete i => (* generator.ipp:13-17 *)
      g <- gget W i ;;
      c <- clean_up (gw_w W) (gw_inits W) g ;;
      let '(w, inits, _) := c in
      Ok (mkGW w inits (set_nth i None (gw_gens W)) (gw_deps W) (gw_calls W) (gw_log W))
  end.

Fixpoint grun (W : gworld) (es : list gop) : res gworld :=
  match es with
  | [] => Ok W
  | e :: es => W' <- gstep W e ;; grun W' es
  end.

(** what a client sees of a generator: good_status (generator.ipp:96-100), get_shape
    (80-88), and the data behind eval() (175-179), which is a null pointer (None) or is
    read with tensor::expose *)
Definition good_status (W : gworld) (i : nat) : res bool :=
  g <- gget W i ;; Ok (match g_data g with Some _ => true | None => false end).
Definition gshape (W : gworld) (i : nat) : res shape :=
  g <- gget W i ;;
  match g_data g with None => Ok [] | Some k => t <- lookup (gw_w W) k ;; Ok (get_shape t) end.
Definition geval (W : gworld) (i : nat) : res (option (res (list T))) :=
  g <- gget W i ;;
  match g_data g with None => Ok None | Some k => t <- lookup (gw_w W) k ;; Ok (Some (t_expose (w_heap (gw_w W)) t)) end.

End Gen.
Arguments mkGW {T}. Arguments gw_w {T}. Arguments gw_inits {T}. Arguments gw_gens {T}.
Arguments gw_deps {T}. Arguments gw_calls {T}. Arguments gw_log {T}.
