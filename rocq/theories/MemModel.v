(** Block memory shared by the matmul model: a list of buffers, a pointer being a buffer
    number and an element offset. Reading or writing outside a buffer, or through a freed
    one (length 0), is UB. Only the shape of [T*] arithmetic is modelled: adding to a
    pointer moves the offset inside the same buffer. *)
From Verif Require Import Common.

Definition mem (T : Type) := list (list T).
Definition ptr := (nat * nat)%type.

(** [p + k] *)
Definition padd (p : ptr) (k : nat) : ptr := (fst p, snd p + k).

(** [p[0]] as a value *)
Definition rdp {T} (m : mem T) (p : ptr) : res T := blk <- rd m (fst p) ;; rd blk (snd p).
(** [p[0] = v] *)
Definition wrp {T} (m : mem T) (p : ptr) (v : T) : res (mem T) :=
  blk <- rd m (fst p) ;; blk' <- wr blk (snd p) v ;; wr m (fst p) blk'.
(** [new T[n]]: a fresh buffer, whose initial content [fresh] is arbitrary *)
Definition newp {T} (fresh : nat -> nat -> T) (m : mem T) (n : nat) : mem T * ptr :=
  (m ++ [map (fresh (length m)) (seq 0 n)], (length m, 0)).
(** [delete [] p] *)
Definition delp {T} (m : mem T) (p : ptr) : res (mem T) := wr m (fst p) [].
