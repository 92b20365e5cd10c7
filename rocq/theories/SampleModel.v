(** Model of binomial_sample (app/tenncor/src/graph/operations/elementary.ipp:1220-1329) and of
    as_constant. A draw from std::binomial_distribution<int>(n, p) is an arbitrary value
    [draw i n p] where i is the position of the element it is drawn for; that draws are numbers
    between 0 and n is a hypothesis of the theorems (SampleSpec.v). The overload with a node n
    and a number p is left out: [std::vector<inode<T>*>{p}] in line 1280 makes a vector of p
    null pointers out of a floating point p, which compilers reject or warn about. *)
From Verif Require Import Common ShapeModel ElemModel.

Section Sample.
Context {T : Type} (N : num T) (fresh : nat -> T) (draw : nat -> T -> T -> T).
Notation zero := (n_zero N).
Notation one := (n_one N).

(** elementary.ipp:1250: [assert(p >= 0 && p <= 1)] *)
Definition in_unit (p : T) : bool := negb (n_ltb N p zero) && negb (n_ltb N one p).

(** elementary.ipp:1243-1254: a number n of trials, a node of probabilities *)
Definition sample_fwd (n : T) : forward := fun outs ins srcs dest =>
  s0 <- rd srcs 0 ;;
  for_ (n_elems outs) (fun i d =>
    p <- rd s0 i ;;
    _ <- assert_ (in_unit p) ;;
    wr d i (draw i n p)) dest.
(** the value of that node, whose probabilities are [t] *)
Definition sample_value (n : T) (t : tens T) : res (tens T) :=
  forward_pass fresh elementary_shaper (sample_fwd n) [t] None.

(** elementary.ipp:1224-1236, probabilities in a constant: [std::vector<T> pvec((T) 0,
    pcvec.size())] is a vector of 0 elements; std::transform writes through its begin() *)
Definition sample_const (n : T) (t : tens T) : res (list T) :=
  for_ (length (snd t)) (fun i d => p <- rd (snd t) i ;; wr d i (draw i n p)) [].

(** elementary.ipp:1315-1328: both are nodes. The new node has the one argument p, its forward
    function reads two. *)
Definition sample_both_fwd : forward := fun outs ins srcs dest =>
  for_ (n_elems outs) (fun i d =>
    s0 <- rd srcs 0 ;; n <- rd s0 i ;;
    s1 <- rd srcs 1 ;; p <- rd s1 i ;;
    _ <- assert_ (in_unit p) ;;
    wr d i (draw i n p)) dest.
Definition sample_both_value (tn tp : tens T) : res (tens T) :=
  forward_pass fresh elementary_shaper sample_both_fwd [tp] None.

(** elementary.ipp:425-437 as_constant with const_immutable.ipp:24-41: a node without leaves
    that copies its argument. The first function is its shaper. *)
Definition as_constant_value (t : tens T) : res (tens T) :=
  forward_pass fresh (fun shapes => rd shapes 0)
    (fun outs ins srcs dest => s0 <- rd srcs 0 ;; for_ (n_elems outs) (fun i d => x <- rd s0 i ;; wr d i x) dest) [t] None.
End Sample.
