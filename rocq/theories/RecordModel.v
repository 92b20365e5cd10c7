(** Model of the allocator registry (include/memory/alloc_builder.hpp, src/memory/alloc_builder.cpp)
    and of the edge recorders (src/edgeinfo/adjlist_record.cpp, src/edgeinfo/grpc_vis_record.cpp)
    with the calls subject.cpp makes to them. *)
From Verif Require Import Common.
From Verif Require Import CacheModel.

(** ---- registry ---- *)

(** An allocator instance: the number of its creation (its identity) and its class. Classes are
    numbered; class 0 is default_alloc. *)
Record instance := mkinst { inst_no : nat; inst_class : nat }.

(** alloc_builder.hpp:74 registry_ as a list of bindings with distinct keys, and the number of
    allocators created so far *)
Record registry := mkreg { bindings : list (nat * instance); created : nat }.

Fixpoint reg_find (b : list (nat * instance)) (id : nat) : option instance :=
  match b with
  | [] => None
  | (i, a) :: b' => if i =? id then Some a else reg_find b' id
  end.

(** include/memory/default_alloc.hpp:26 alloc_id *)
Definition default_id : nat := 0.

(** alloc_builder.cpp:34-38 constructor *)
Definition registry_new : registry := mkreg [(default_id, mkinst 0 0)] 1.

(** alloc_builder.cpp:23-32 get: the pointer, null if absent *)
Definition reg_get (r : registry) (id : nat) : option instance := reg_find (bindings r) id.

(** alloc_builder.hpp:46-52 check_registry<A>; [isa c a]: class [c] is [a] or derives from it
    (dynamic_cast) *)
Definition check_registry (isa : nat -> nat -> bool) (r : registry) (cls id : nat) : bool :=
  match reg_find (bindings r) id with
  | None => false
  | Some a => isa (inst_class a) cls
  end.

(** alloc_builder.hpp:57-67 registertype<A> *)
Definition registertype (r : registry) (cls id : nat) : registry * bool :=
  match reg_find (bindings r) id with
  | None => (mkreg ((id, mkinst (created r) cls) :: bindings r) (S (created r)), true)
  | Some _ => (r, false)
  end.

(** a history of registrations with their results *)
Fixpoint registrations (r : registry) (l : list (nat * nat)) : registry * list bool :=
  match l with
  | [] => (r, [])
  | (cls, id) :: l' =>
    let '(r, b) := registertype r cls id in
    let '(r, bs) := registrations r l' in (r, b :: bs)
  end.

(** ---- adjlist_record ---- *)

(** adjlist_record.hpp:50 subj_nodes: subject to the set of (observer, index) *)
Definition adj := list (nat * list (nat * nat)).

Definition pair_eq (p q : nat * nat) : bool := (fst p =? fst q) && (snd p =? snd q).
Fixpoint adj_find (a : adj) (s : nat) : option (list (nat * nat)) :=
  match a with [] => None | (k, l) :: a' => if k =? s then Some l else adj_find a' s end.
(** unordered_map::erase(key) *)
Definition adj_erase (a : adj) (s : nat) : adj := filter (fun p => negb (fst p =? s)) a.
Definition adj_set (a : adj) (s : nat) (l : list (nat * nat)) : adj := (s, l) :: adj_erase a s.
(** unordered_set::emplace, erase *)
Definition set_insert (p : nat * nat) (l : list (nat * nat)) : list (nat * nat) := if existsb (pair_eq p) l then l else p :: l.
Definition set_erase (p : nat * nat) (l : list (nat * nat)) : list (nat * nat) := filter (fun q => negb (pair_eq p q)) l.

(** adjlist_record.cpp:14-17 node_release *)
Definition node_release (a : adj) (sub : nat) : adj := adj_erase a sub.

(** adjlist_record.cpp:19-32 edge_capture; [recordable]: iobserver.cpp:166-169 *)
Definition edge_capture (recordable : nat -> bool) (a : adj) (obs sub idx : nat) : adj :=
  if negb (recordable obs) then a
  else
    let a := match adj_find a sub with Some _ => a | None => (sub, []) :: a end in
    match adj_find a sub with
    | Some l => adj_set a sub (set_insert (obs, idx) l)
    | None => a
    end.

(** adjlist_record.cpp:34-41 edge_release *)
Definition edge_release (a : adj) (obs sub idx : nat) : adj :=
  match adj_find a sub with
  | Some l => adj_set a sub (set_erase (obs, idx) l)
  | None => a
  end.

(** the edges listed by the recorder, as csv_record writes them (csv_record.hpp:36-60): every
    (observer, index) of every subject *)
Definition edges (a : adj) : list (nat * nat * nat) :=
  flat_map (fun p => map (fun q => (fst q, fst p, snd q)) (snd p)) a.

Inductive rec_event := Capture (obs sub idx : nat) | Release (obs sub idx : nat) | NodeGone (sub : nat).

Definition record (recordable : nat -> bool) (a : adj) (e : rec_event) : adj :=
  match e with
  | Capture o s i => edge_capture recordable a o s i
  | Release o s i => edge_release a o s i
  | NodeGone s => node_release a s
  end.

(** ---- the calls of subject.cpp ---- *)

(** audience_ of every subject (subject.hpp:105) as a list of (subject, observer, index), and
    the recorder *)
Record watch := mkwatch { aud : list (nat * nat * nat); rec : adj }.

Definition triple_eq (p q : nat * nat * nat) : bool := pair_eq (fst p) (fst q) && (snd p =? snd q).

Inductive sub_op :=
| OAttach (sub viewer idx : nat)
| ODetach (sub viewer : nat)
| ODetachIdx (sub viewer idx : nat)
| ODestroy (sub : nat).

(** subject.cpp:150-163 attach, 165-185 detach(viewer), 187-213 detach(viewer, idx), and the end
    of 22-41 ~subject, where audience_ disappears with the object *)
Definition sub_step (recordable : nat -> bool) (w : watch) (o : sub_op) : watch :=
  match o with
  | OAttach s v i =>
    mkwatch (if existsb (triple_eq (s, v, i)) (aud w) then aud w else (s, v, i) :: aud w)
            (edge_capture recordable (rec w) v s i)
  | ODetach s v =>
    let mine := filter (fun t => pair_eq (s, v) (fst t)) (aud w) in
    mkwatch (filter (fun t => negb (pair_eq (s, v) (fst t))) (aud w))
            (fold_left (fun a t => edge_release a v s (snd t)) mine (rec w))
  | ODetachIdx s v i =>
    mkwatch (filter (fun t => negb (triple_eq (s, v, i) t)) (aud w)) (edge_release (rec w) v s i)
  | ODestroy s =>
    mkwatch (filter (fun t => negb (fst (fst t) =? s)) (aud w)) (node_release (rec w) s)
  end.

(** ---- rpc_record ---- *)

(** grpc_vis_record.cpp:64-92: what edge_capture and edge_release put in edge_cache_. [true]:
    status ADD, [false]: REMOVE. The key (25-29) is the string "idx:obs:sub"; uids contain no
    colon, so the triple stands for the string. *)
Definition edge_msg := (nat * nat * nat * bool)%type.
Definition msg_key (m : edge_msg) : nat * nat * nat := fst m.
Definition rpc_messages (e : rec_event) : list edge_msg :=
  match e with
  | Capture o s i => [((o, s, i), true)]
  | Release o s i => [((o, s, i), false)]
  | NodeGone _ => []
  end.
