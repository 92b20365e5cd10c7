(** Model of app/tenncor/src/thread/shareable_cache.ipp and include/thread/shareable_cache.hpp.
    Every public method locks mutex_ for its whole body (except while waiting), so calls are
    atomic steps. Nodes are kept alive by shared_ptr; the model never reclaims a node, so the
    address of a node is the number of nodes created before it. *)
From Verif Require Import Common.

Section Cache.
(** [hash]: the hasher_ passed to the constructor; [keqb]: equality of keys in umap_ *)
Context {K T : Type} (hash : T -> K) (keqb : K -> K -> bool).

(** shareable_cache.hpp:27-34 cache_node *)
Record cnode := mknode { nxt : option nat; prv : option nat; dat : T }.

(** shareable_cache.hpp:64-77 members: the heap of nodes, content_.head_, content_.tail_ and
    umap_ (newest binding first) *)
Record cache := mkcache { nodes : list cnode; chead : option nat; ctail : option nat; umap : list (K * nat) }.

(** shareable_cache.ipp:90-92 constructor *)
Definition cache_new : cache := mkcache [] None None [].

(** umap_.find *)
Fixpoint ufind (u : list (K * nat)) (k : K) : option nat :=
  match u with
  | [] => None
  | (k', a) :: u' => if keqb k' k then Some a else ufind u' k
  end.

(** assignments through a shared_ptr to a node *)
Definition set_nxt (c : cache) (a : nat) (v : option nat) : res cache :=
  n <- rd (nodes c) a ;;
  Ok (mkcache (set_nth a (mknode v (prv n) (dat n)) (nodes c)) (chead c) (ctail c) (umap c)).
Definition set_prv (c : cache) (a : nat) (v : option nat) : res cache :=
  n <- rd (nodes c) a ;;
  Ok (mkcache (set_nth a (mknode (nxt n) v (dat n)) (nodes c)) (chead c) (ctail c) (umap c)).

(** comparison of two shared_ptr *)
Definition ptr_eqb (p q : option nat) : bool :=
  match p, q with Some a, Some b => a =? b | None, None => true | _, _ => false end.

(** shareable_cache.ipp:23-34 push_back *)
Definition push_back (c : cache) (d : T) : res (cache * nat) :=
  let a := length (nodes c) in
  match ctail c with
  | None =>
    Ok (mkcache (nodes c ++ [mknode None None d]) (Some a) (Some a) (umap c), a)
  | Some t =>
    let c := mkcache (nodes c ++ [mknode None (Some t) d]) (chead c) (ctail c) (umap c) in
    c <- set_nxt c t (Some a) ;;
    Ok (mkcache (nodes c) (chead c) (Some a) (umap c), a)
  end.

(** shareable_cache.ipp:39-68 unlink *)
Definition unlink (c : cache) (it : nat) : res cache :=
  let is_tail := ptr_eqb (ctail c) (Some it) in
  n <- rd (nodes c) it ;;
  let c := if ptr_eqb (chead c) (Some it) then mkcache (nodes c) (nxt n) (ctail c) (umap c) else c in
  let c := if is_tail then mkcache (nodes c) (chead c) (prv n) (umap c) else c in
  c <- (match prv n with Some p => set_nxt c p (nxt n) | None => Ok c end) ;;
  c <- (match nxt n with Some x => set_prv c x (prv n) | None => Ok c end) ;;
  c <- set_prv c it None ;;
  if is_tail then set_nxt c it (ctail c) else Ok c.

(** the loop of shareable_cache.ipp:77-80; dereferencing a null [it] is undefined *)
Fixpoint skip_broken (fuel : nat) (c : cache) (it : option nat) : res nat :=
  match fuel, it with
  | 0, _ | _, None => UB
  | S fuel, Some a =>
    n <- rd (nodes c) a ;;
    match prv n with None => skip_broken fuel c (nxt n) | Some _ => Ok a end
  end.

(** shareable_cache.ipp:73-82 grab_truth: returns the flag and the new value of [it] *)
Definition grab_truth (c : cache) (it : option nat) : res (bool * option nat) :=
  match it with
  | None => Ok (false, it)
  | Some a =>
    if ptr_eqb (chead c) it then Ok (false, it)
    else
      n <- rd (nodes c) a ;;
      let broken := match prv n with None => true | Some _ => false end in
      a' <- skip_broken (S (length (nodes c))) c it ;;
      Ok (broken, Some a')
  end.

(** shareable_cache.ipp:94-127 get_latest up to the wait: the value (unset when the caller has
    to wait) and the new iterator *)
Definition get_latest (c : cache) (iter : option nat) : res (option T * option nat) :=
  match iter with
  | None =>
    match chead c with
    | None => Ok (None, None)
    | Some a => n <- rd (nodes c) a ;; Ok (Some (dat n), Some a)
    end
  | Some _ =>
    g <- grab_truth c iter ;;
    let '(broken, it) := g in
    match it with
    | None => UB
    | Some a =>
      n <- rd (nodes c) a ;;
      if broken then Ok (Some (dat n), it)
      else match nxt n with
           | Some b => m <- rd (nodes c) b ;; Ok (Some (dat m), Some b)
           | None => Ok (None, it)
           end
    end
  end.

(** shareable_cache.ipp:129-142 add_latest up to the notification *)
Definition add_latest (c : cache) (d : T) : res cache :=
  let key := hash d in
  c <- (match ufind (umap c) key with Some a => unlink c a | None => Ok c end) ;;
  p <- push_back c d ;;
  let '(c, a) := p in
  Ok (mkcache (nodes c) (chead c) (ctail c) ((key, a) :: umap c)).

(** any number of additions in order *)
Fixpoint adds (c : cache) (ds : list T) : res cache :=
  match ds with [] => Ok c | d :: ds' => c' <- add_latest c d ;; adds c' ds' end.

(** [n] consecutive reads by one consumer: the results in order and the final iterator *)
Fixpoint reads (n : nat) (c : cache) (iter : option nat) : res (list (option T) * option nat) :=
  match n with
  | 0 => Ok ([], iter)
  | S n =>
    r <- get_latest c iter ;;
    let '(v, iter) := r in
    rs <- reads n c iter ;;
    let '(vs, iter) := rs in
    Ok (v :: vs, iter)
  end.

(** ---- consumers and the condition variable ---- *)

(** a consumer between two calls, or waiting in cond_.wait (shareable_cache.ipp:122-125) *)
Record consumer := mkcons { citer : option nat; waiting : bool; got : list T }.
Record sys := mksys { shared : cache; consumers : list consumer }.

(** [Add d (Some i)]: add_latest, and notify_one (line 141) wakes consumer [i];
    [Add d None]: nobody was waiting. [Read i]: consumer [i], not waiting, calls get_latest.
    [Wake i]: a spurious wake-up or escape_wait (shareable_cache.ipp:144-148). *)
Inductive event := Add (d : T) (woken : option nat) | Read (i : nat) | Wake (i : nat).

Definition upd_consumer (s : sys) (i : nat) (k : consumer) : sys := mksys (shared s) (set_nth i k (consumers s)).
Definition wake (s : sys) (i : nat) : sys :=
  match nth_error (consumers s) i with
  | Some k => upd_consumer s i (mkcons (citer k) false (got k))
  | None => s
  end.

(** whether the event can happen: notify_one wakes one waiting consumer when there is one *)
Definition enabled (s : sys) (e : event) : Prop :=
  match e with
  | Add _ (Some i) | Wake i => exists k, nth_error (consumers s) i = Some k /\ waiting k = true
  | Add _ None => forall k, In k (consumers s) -> waiting k = false
  | Read i => exists k, nth_error (consumers s) i = Some k /\ waiting k = false
  end.

Definition exec (s : sys) (e : event) : res sys :=
  match e with
  | Add d w =>
    c <- add_latest (shared s) d ;;
    let s := mksys c (consumers s) in
    Ok (match w with Some i => wake s i | None => s end)
  | Wake i => Ok (wake s i)
  | Read i =>
    k <- rd (consumers s) i ;;
    r <- get_latest (shared s) (citer k) ;;
    let '(v, it) := r in
    Ok (upd_consumer s i (match v with
                          | Some d => mkcons it false (got k ++ [d])
                          | None => mkcons it true (got k)
                          end))
  end.

End Cache.
